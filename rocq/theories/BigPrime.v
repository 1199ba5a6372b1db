(** 2^63 - 25 is prime (a Pocklington-style certificate), hence in the range where z * z overflows. *)
From Verif Require Import Base Arith ArithFacts ArithFacts2 Fermat.
From Coq Require Import ZArith Znumtheory Zpow_facts Lia List.
Open Scope Z_scope.
Set Implicit Arguments.

Lemma pow_one_mod p b q j : 1 < p -> 0 <= q -> 0 <= j -> (b ^ q) mod p = 1 -> (b ^ (q * j)) mod p = 1.
Proof.
  intros Hp Hq Hj H. rewrite Z.pow_mul_r by assumption. rewrite Zpower_mod by lia. rewrite H.
  rewrite Z.pow_1_l by assumption. apply Z.mod_1_l. assumption.
Qed.

Lemma pock_div n p q b : prime p -> (p | n) -> prime q -> 0 <= b ->
  (b ^ q) mod n = 1 -> 1 < n -> Z.gcd (b - 1) n = 1 -> (q | p - 1).
Proof.
  intros Pp Dp Pq Hb Hq Hn G. assert (P2 := prime_ge_2 _ Pp). assert (Q2 := prime_ge_2 _ Pq).
  assert (B1 : (b ^ q) mod p = 1).
  { destruct Dp as [k ->]. assert (D : (p | b ^ q - 1)).
    { exists (k * (b ^ q / (k * p))). rewrite (Z.div_mod (b ^ q) (k * p)) at 1 by lia. rewrite Hq. ring. }
    destruct D as [m E]. replace (b ^ q) with (1 + m * p) by lia. rewrite Z.mod_add by lia.
    apply Z.mod_1_l. lia. }
  assert (NB : ~ (p | b)).
  { intros [m ->]. replace q with (Z.succ (q - 1)) in B1 by lia. rewrite Z.pow_succ_r in B1 by lia.
    rewrite <- Z.mul_assoc, (Z.mul_comm p), Z.mul_assoc in B1.
    replace (m * p * (m * p) ^ (q - 1)) with ((m * (m * p) ^ (q - 1)) * p) in B1 by ring.
    rewrite Z.mod_mul in B1 by lia. discriminate. }
  assert (F : (b ^ (p - 1)) mod p = 1).
  { assert (F := @fermat_Z (Z.to_nat p) (Z.to_nat b)). rewrite !Z2Nat.id in F by lia. specialize (F Pp).
    assert (D : (p | b * (b ^ (p - 1) - 1))).
    { replace (b * (b ^ (p - 1) - 1)) with (b ^ p - b).
      - apply Z.mod_divide; [lia|]. rewrite Zminus_mod, F, Z.sub_diag. apply Z.mod_0_l. lia.
      - replace p with (Z.succ (p - 1)) at 1 by lia. rewrite Z.pow_succ_r by lia. ring. }
    apply prime_mult in D; [|exact Pp]. destruct D as [D|[m D]]; [contradiction|].
    replace (b ^ (p - 1)) with (1 + m * p) by lia. rewrite Z.mod_add by lia. apply Z.mod_1_l. lia. }
  destruct (Zdivide_dec q (p - 1)) as [D|ND]; [exact D|exfalso].
  assert (RP : rel_prime q (p - 1)) by (apply prime_rel_prime; assumption).
  destruct (rel_prime_bezout _ _ RP) as [u v E].
  (* natural exponents *)
  assert (EX : exists i j, 0 <= i /\ 0 <= j /\ q * i = 1 + (p - 1) * j).
  { assert (M := Z.div_mod u (p - 1)). assert (0 < p - 1) by lia.
    exists (u mod (p - 1) + (p - 1)), (- v - q * (u / (p - 1)) + q).
    pose proof (Z.mod_pos_bound u (p - 1) ltac:(lia)).
    assert (X : q * (u mod (p - 1) + (p - 1)) = 1 + (p - 1) * (- v - q * (u / (p - 1)) + q)).
    { rewrite Zmod_eq_full by lia. nia. }
    split; [lia|]. split; [|exact X]. nia. }
  destruct EX as [i [j [Hi [Hj EX]]]].
  assert (A1 := @pow_one_mod p b q i ltac:(lia) ltac:(lia) Hi B1).
  assert (A2 := @pow_one_mod p b (p - 1) j ltac:(lia) ltac:(lia) Hj F).
  rewrite EX, Z.pow_add_r, Z.pow_1_r in A1 by nia.
  rewrite <- Zmult_mod_idemp_r, A2, Z.mul_1_r in A1.
  assert (D : (p | b - 1)).
  { apply Z.mod_divide; [lia|]. rewrite Zminus_mod, A1, Z.mod_1_l by lia. rewrite Z.sub_diag. apply Z.mod_0_l. lia. }
  assert (D1 : (p | 1)) by (rewrite <- G; apply Z.gcd_greatest; assumption).
  apply Z.divide_1_r_nonneg in D1; lia.
Qed.

(** Modular exponentiation. *)
Fixpoint powm_pos (n a : Z) (e : positive) : Z :=
  match e with
  | xH => a mod n
  | xO f => let p := powm_pos n a f in (p * p) mod n
  | xI f => let p := powm_pos n a f in (((p * p) mod n) * a) mod n
  end.
Lemma powm_pos_eq n a e : n <> 0 -> powm_pos n a e = (a ^ Zpos e) mod n.
Proof.
  intros Hn. induction e; cbn [powm_pos].
  - rewrite IHe, Pos2Z.inj_xI. rewrite Z.pow_add_r, Z.pow_1_r by lia.
    replace (2 * Zpos e) with (Zpos e + Zpos e) by lia. rewrite Z.pow_add_r by lia.
    rewrite Zmult_mod_idemp_l. rewrite <- Zmult_mod_idemp_l with (b := a), <- (Zmult_mod (a ^ Zpos e)).
    rewrite Zmult_mod_idemp_l. reflexivity.
  - rewrite IHe, Pos2Z.inj_xO.
    replace (2 * Zpos e) with (Zpos e + Zpos e) by lia. rewrite Z.pow_add_r by lia.
    rewrite <- Zmult_mod. reflexivity.
  - rewrite Z.pow_1_r. reflexivity.
Qed.

Definition big_prime : Z := 2 ^ 63 - 25.

(** Whatever the fuel, an answer of is_prime on n >= 2 below the limit is right. *)
Lemma is_prime_loop_sound n : 2 <= n -> ~ (2 | n) -> ~ (3 | n) ->
  forall fuel j, 1 <= j -> no_div_below (6 * j - 1) n ->
  is_prime_loop fuel n (6 * j) = Some (Ok true) -> prime n.
Proof.
  intros Hn N2 N3. induction fuel as [|fuel IH]; intros j Hj ND; [discriminate|].
  cbn [is_prime_loop]. destruct (imul (6 * j) (6 * j)) as [dd| | |] eqn:EM; try discriminate.
  apply imul_inv in EM. subst dd.
  destruct (Z.leb_spec (6 * j * (6 * j) - 2 * (6 * j) + 1) n) as [L|L].
  - destruct (Z.eqb_spec (Z.rem n (6 * j - 1)) 0) as [E|E];
      [|destruct (Z.eqb_spec (Z.rem n (6 * j + 1)) 0) as [E'|E']]; cbn [orb]; try discriminate.
    replace (6 * j + 6) with (6 * (j + 1)) by ring. apply IH; [lia|].
    intros d Hd D. rewrite Z.rem_mod_nonneg in E, E' by lia.
    assert (C : (d < 6 * j - 1 \/ d = 6 * j - 1 \/ d = 6 * j \/ d = 6 * j + 1 \/ d = 6 * j + 2 \/
            d = 6 * j + 3 \/ d = 6 * j + 4)%Z) by lia.
    destruct C as [C|[->|[->|[->|[->|[->| ->]]]]]].
    + apply (ND d); [lia|exact D].
    + apply E, Z.mod_divide; [lia|exact D].
    + apply N2. apply (Z.divide_trans _ (6 * j)); [exists (3 * j)%Z; ring|exact D].
    + apply E', Z.mod_divide; [lia|exact D].
    + apply N2. apply (Z.divide_trans _ (6 * j + 2)); [exists (3 * j + 1)%Z; ring|exact D].
    + apply N3. apply (Z.divide_trans _ (6 * j + 3)); [exists (2 * j + 1)%Z; ring|exact D].
    + apply N2. apply (Z.divide_trans _ (6 * j + 4)); [exists (3 * j + 2)%Z; ring|exact D].
  - intros _. apply (@no_div_prime_big (6 * j - 1) n); [exact ND|lia|lia|lia].
Qed.
Lemma is_prime_sound n fuel : 2 <= n -> is_prime fuel n = Some (Ok true) -> prime n.
Proof.
  intros Hn. unfold is_prime.
  destruct (Z.eqb_spec n 2) as [->|N2]; [intros _; exact prime_2|].
  destruct (Z.eqb_spec n 3) as [->|N3]; [intros _; exact prime_3|].
  cbn [orb]. rewrite !Z.rem_mod_nonneg by lia.
  destruct (Z.eqb_spec (n mod 2) 0) as [E|E]; [discriminate|].
  destruct (Z.eqb_spec (n mod 3) 0) as [E'|E']; [discriminate|].
  cbn [orb]. apply (@is_prime_loop_sound n) with (j := 1%Z); try lia.
  - intros D. apply E, Z.mod_divide; [lia|exact D].
  - intros D. apply E', Z.mod_divide; [lia|exact D].
  - intros d Hd D. assert (d = 2 \/ d = 3 \/ d = 4)%Z as [->|[->| ->]] by lia.
    + apply E, Z.mod_divide; [lia|exact D].
    + apply E', Z.mod_divide; [lia|exact D].
    + apply E, Z.mod_divide; [lia|]. apply (Z.divide_trans _ 4); [exists 2%Z; reflexivity|exact D].
Qed.

Lemma prime_17 : prime 17.
Proof. apply (is_prime_sound (n := 17) 10); [lia|vm_compute; reflexivity]. Qed.
Lemma prime_456065899 : prime 456065899.
Proof. apply (is_prime_sound (n := 456065899) 4000); [lia|vm_compute; reflexivity]. Qed.

Lemma big_prime_step q (b : Z) (e : positive) : prime q -> b = powm_pos big_prime 3 e -> 
  (powm_pos big_prime b (Z.to_pos q) = 1) -> Z.gcd (b - 1) big_prime = 1 ->
  forall p, prime p -> (p | big_prime) -> (q | p - 1).
Proof.
  intros Pq Eb E1 G p Pp Dp. assert (Q2 := prime_ge_2 _ Pq).
  apply (@pock_div big_prime p q b); auto.
  - rewrite Eb, powm_pos_eq by discriminate. apply Z.mod_pos_bound. reflexivity.
  - rewrite powm_pos_eq in E1 by discriminate. rewrite Z2Pos.id in E1 by lia. exact E1.
  - reflexivity.
Qed.

Lemma big_prime_prime : prime big_prime.
Proof.
  destruct (prime_dec big_prime) as [P|NP]; [exact P|exfalso].
  destruct (not_prime_divide big_prime) as [d [Hd Dd]]; [reflexivity|exact NP|].
  (* a prime divisor that is at most the square root *)
  assert (E : exists p, prime p /\ (p | big_prime) /\ p * p <= big_prime).
  { destruct Dd as [e E].
    destruct (Z_le_gt_dec (d * d) big_prime).
    - destruct (@has_prime_divisor d) as [p [Pp Dp]]; [lia|]. exists p. split; [exact Pp|]. split.
      + apply (Z.divide_trans _ d); [exact Dp|exists e; exact E].
      + assert (p <= d) by (apply Z.divide_pos_le; [lia|exact Dp]). pose proof (prime_ge_2 _ Pp). nia.
    - assert (e < d) by nia. assert (2 <= e) by nia.
      destruct (@has_prime_divisor e) as [p [Pp Dp]]; [lia|]. exists p. split; [exact Pp|]. split.
      + apply (Z.divide_trans _ e); [exact Dp|exists d; lia].
      + assert (p <= e) by (apply Z.divide_pos_le; [lia|exact Dp]). pose proof (prime_ge_2 _ Pp). nia. }
  destruct E as [p [Pp [Dp Lp]]]. pose proof (prime_ge_2 _ Pp).
  assert (D1 : (456065899 | p - 1)).
  { apply (@big_prime_step 456065899 _ (Z.to_pos ((big_prime - 1) / 456065899)) prime_456065899 eq_refl); auto;
      vm_compute; reflexivity. }
  assert (D2 : (17 | p - 1)).
  { apply (@big_prime_step 17 _ (Z.to_pos ((big_prime - 1) / 17)) prime_17 eq_refl); auto;
      vm_compute; reflexivity. }
  destruct D1 as [k Ek].
  assert (D3 : (17 | k)).
  { apply (Z.gauss _ 456065899); [rewrite Z.mul_comm, <- Ek; exact D2|reflexivity]. }
  destruct D3 as [m ->]. assert (1 <= m) by lia.
  assert (7753120284 <= p) by lia. unfold big_prime in Lp. nia.
Qed.

Lemma is_prime_loop_overflow n : prime n -> is_prime_limit <= n ->
  forall fuel j, 1 <= j <= 506166750 -> 506166750 - j < Z.of_nat fuel ->
  is_prime_loop fuel n (6 * j) = Some UB.
Proof.
  intros P Hn. unfold is_prime_limit in Hn. induction fuel as [|fuel IH]; intros j Hj Hf; [lia|].
  cbn [is_prime_loop]. destruct (Z.eq_dec j 506166750) as [->|]; [reflexivity|].
  rewrite imul_square by (unfold isqrt_imax; lia).
  destruct (Z.leb_spec (6 * j * (6 * j) - 2 * (6 * j) + 1) n) as [L|L]; [|nia].
  assert (ND : forall d, 1 < d < n -> Z.rem n d <> 0).
  { intros d Hd E. rewrite Z.rem_mod_nonneg in E by lia. apply Z.mod_divide in E; [|lia].
    apply prime_alt in P. destruct P as [_ P]. apply (P d Hd E). }
  assert (N1 : Z.rem n (6 * j - 1) <> 0) by (apply ND; nia).
  assert (N2 : Z.rem n (6 * j + 1) <> 0) by (apply ND; nia).
  apply Z.eqb_neq in N1, N2. rewrite N1, N2. cbn [orb].
  replace (6 * j + 6) with (6 * (j + 1)) by ring. apply IH; lia.
Qed.
Lemma is_prime_overflow n fuel : prime n -> is_prime_limit <= n -> 506166750 <= Z.of_nat fuel ->
  is_prime fuel n = Some UB.
Proof.
  intros P Hn Hf. unfold is_prime.
  assert (ND : forall d, 1 < d < n -> Z.rem n d <> 0).
  { intros d Hd E. unfold is_prime_limit in Hn. rewrite Z.rem_mod_nonneg in E by lia. apply Z.mod_divide in E; [|lia].
    apply prime_alt in P. destruct P as [_ P]. apply (P d Hd E). }
  unfold is_prime_limit in Hn.
  destruct (Z.eqb_spec n 2); [lia|]. destruct (Z.eqb_spec n 3); [lia|]. cbn [orb].
  assert (N1 : Z.rem n 2 <> 0) by (apply ND; lia).
  assert (N2 : Z.rem n 3 <> 0) by (apply ND; lia).
  apply Z.eqb_neq in N1, N2. rewrite N1, N2. cbn [orb].
  apply (@is_prime_loop_overflow n P Hn fuel 1); lia.
Qed.
