From Verif Require Import Base Arith ArithFacts.
From Coq Require Import ZArith Znumtheory Zpow_facts Lia List Sorted.
Open Scope nat_scope.
Set Implicit Arguments.

(** ** is_prime *)
Definition is_prime_limit : Z := (3037000493 * 3037000493)%Z.

Lemma not_prime_div n d : (1 < d < n)%Z -> (d | n)%Z -> ~ prime n.
Proof. intros H D P. apply prime_alt in P. destruct P as [_ P]. apply (P d H D). Qed.

Lemma is_prime_loop_correct n : (2 <= n < is_prime_limit)%Z -> ~ (2 | n)%Z -> ~ (3 | n)%Z ->
  forall fuel j, (1 <= j)%Z -> (1 < j -> (6 * j - 7) * (6 * j - 7) <= n)%Z ->
  no_div_below (6 * j - 1) n -> (n < Z.of_nat fuel + j)%Z ->
  exists b, is_prime_loop fuel n (6 * j) = Some (Ok b) /\ (b = true <-> prime n).
Proof.
  intros Hn N2 N3. induction fuel as [|fuel IH]; intros j Hj Hprev ND Hf.
  - exfalso. assert (j = 1 \/ 1 < j)%Z as [->|L] by lia; [lia|]. specialize (Hprev L). nia.
  - cbn [is_prime_loop].
    assert (B : (6 * j <= 3037000494)%Z).
    { assert (j = 1 \/ 1 < j)%Z as [->|L] by lia; [lia|]. specialize (Hprev L).
      unfold is_prime_limit in Hn.
      assert (6 * j - 7 < 3037000493)%Z by nia. lia. }
    rewrite imul_square by (unfold isqrt_imax; lia).
    destruct (Z.leb_spec (6 * j * (6 * j) - 2 * (6 * j) + 1) n) as [L|L].
    + destruct (Z.eqb_spec (Z.rem n (6 * j - 1)) 0) as [E|E];
        [|destruct (Z.eqb_spec (Z.rem n (6 * j + 1)) 0) as [E'|E']]; cbn [orb].
      * exists false. split; [reflexivity|]. split; [discriminate|]. intros P. exfalso.
        rewrite Z.rem_mod_nonneg in E by lia. apply Z.mod_divide in E; [|lia].
        revert P. apply (@not_prime_div n (6 * j - 1)); [nia|exact E].
      * exists false. split; [reflexivity|]. split; [discriminate|]. intros P. exfalso.
        rewrite Z.rem_mod_nonneg in E' by lia. apply Z.mod_divide in E'; [|lia].
        revert P. apply (@not_prime_div n (6 * j + 1)); [nia|exact E'].
      * replace (6 * j + 6)%Z with (6 * (j + 1))%Z by ring.
        apply IH; [lia|intros _; nia| |lia].
        intros d Hd D. rewrite Z.rem_mod_nonneg in E, E' by lia.
        assert (C : (d < 6 * j - 1 \/ d = 6 * j - 1 \/ d = 6 * j \/ d = 6 * j + 1 \/ d = 6 * j + 2 \/
                d = 6 * j + 3 \/ d = 6 * j + 4)%Z) by lia.
        destruct C as [C|[->|[->|[->|[->|[->| ->]]]]]].
        -- apply (ND d); [lia|exact D].
        -- apply E, Z.mod_divide; [lia|exact D].
        -- apply N2. apply (Z.divide_trans _ (6 * j)); [exists (3 * j)%Z; ring|exact D].
        -- apply E', Z.mod_divide; [lia|exact D].
        -- apply N2. apply (Z.divide_trans _ (6 * j + 2)); [exists (3 * j + 1)%Z; ring|exact D].
        -- apply N3. apply (Z.divide_trans _ (6 * j + 3)); [exists (2 * j + 1)%Z; ring|exact D].
        -- apply N2. apply (Z.divide_trans _ (6 * j + 4)); [exists (3 * j + 2)%Z; ring|exact D].
    + exists true. split; [reflexivity|]. split; [|reflexivity]. intros _.
      apply (@no_div_prime_big (6 * j - 1) n); [exact ND|lia|lia|lia].
Qed.

Lemma is_prime_correct n : (2 <= n < is_prime_limit)%Z -> forall fuel, (n <= Z.of_nat fuel)%Z ->
  exists b, is_prime fuel n = Some (Ok b) /\ (b = true <-> prime n).
Proof.
  intros Hn fuel Hf. unfold is_prime.
  destruct (Z.eqb_spec n 2) as [->|N2]; [exists true; split; [reflexivity|]; split; [intros _; exact prime_2|reflexivity]|].
  destruct (Z.eqb_spec n 3) as [->|N3]; [exists true; split; [reflexivity|]; split; [intros _; exact prime_3|reflexivity]|].
  cbn [orb]. rewrite !Z.rem_mod_nonneg by lia.
  destruct (Z.eqb_spec (n mod 2) 0) as [E|E].
  { exists false. split; [reflexivity|]. split; [discriminate|]. intros P. exfalso. revert P.
    apply (@not_prime_div n 2); [lia|apply Z.mod_divide; [lia|exact E]]. }
  destruct (Z.eqb_spec (n mod 3) 0) as [E'|E'].
  { exists false. split; [reflexivity|]. split; [discriminate|]. intros P. exfalso. revert P.
    apply (@not_prime_div n 3); [lia|apply Z.mod_divide; [lia|exact E']]. }
  cbn [orb]. apply (@is_prime_loop_correct n) with (j := 1%Z); try lia.
  - intros D. apply E, Z.mod_divide; [lia|exact D].
  - intros D. apply E', Z.mod_divide; [lia|exact D].
  - intros d Hd D. assert (d = 2 \/ d = 3 \/ d = 4)%Z as [->|[->| ->]] by lia.
    + apply E, Z.mod_divide; [lia|exact D].
    + apply E', Z.mod_divide; [lia|exact D].
    + apply E, Z.mod_divide; [lia|]. apply (Z.divide_trans _ 4); [exists 2%Z; reflexivity|exact D].
Qed.

(** Every integer up to 1 that is neither even nor a multiple of 3 passes. *)
Lemma is_prime_small n fuel : (n <= 1)%Z -> (1 <= fuel)%nat ->
  is_prime fuel n = Some (Ok (negb (Z.even n) && negb (Z.rem n 3 =? 0)%Z)).
Proof.
  intros Hn Hf. unfold is_prime.
  replace (n =? 2)%Z with false by (symmetry; apply Z.eqb_neq; lia).
  replace (n =? 3)%Z with false by (symmetry; apply Z.eqb_neq; lia). cbn [orb].
  assert (E : (Z.rem n 2 =? 0)%Z = Z.even n).
  { destruct (Z.even n) eqn:E.
    - apply Z.eqb_eq. apply Z.even_spec in E. destruct E as [m ->]. rewrite Z.mul_comm. apply Z.rem_mul. lia.
    - apply Z.eqb_neq. intros R. apply Z.rem_divide in R; [|lia]. destruct R as [q R].
      rewrite R, Z.mul_comm, Z.even_mul in E. discriminate. }
  rewrite E. destruct (Z.even n); cbn [negb andb orb]; [reflexivity|].
  destruct (Z.rem n 3 =? 0)%Z; cbn [negb]; [reflexivity|].
  destruct fuel as [|fuel]; [lia|]. cbn [is_prime_loop]. rewrite imul_square by (unfold isqrt_imax; lia).
  destruct (Z.leb_spec (6 * 6 - 2 * 6 + 1) n); [lia|reflexivity].
Qed.

(** ** next_prime *)
Lemma next_prime_loop_correct q fuel0 : prime q -> (q < is_prime_limit)%Z -> (q <= Z.of_nat fuel0)%Z ->
  forall fuel a, (1 <= a < q)%Z -> (forall p, (a < p < q)%Z -> ~ prime p) -> (q - a <= Z.of_nat fuel)%Z ->
  next_prime_loop fuel fuel0 a = Some (Ok q).
Proof.
  intros Pq Lq Fq. induction fuel as [|fuel IH]; intros a Ha NP Hf; [lia|].
  cbn [next_prime_loop].
  destruct (@is_prime_correct (a + 1)%Z) with (fuel := fuel0) as [b [E B]]; [lia|lia|]. rewrite E.
  destruct b.
  - destruct (Z.eq_dec (a + 1) q) as [->|]; [reflexivity|]. exfalso. apply (NP (a + 1)%Z); [lia|]. apply B. reflexivity.
  - apply IH; try lia.
    + destruct (Z.eq_dec (a + 1) q) as [<-|]; [|lia]. apply B in Pq. discriminate.
    + intros p Hp. apply NP. lia.
Qed.
Lemma next_prime_correct q a : prime q -> (q < is_prime_limit)%Z -> (1 <= a < q)%Z ->
  (forall p, (a < p < q)%Z -> ~ prime p) -> forall fuel, (q <= Z.of_nat fuel)%Z -> next_prime fuel a = Some (Ok q).
Proof. intros. unfold next_prime. apply next_prime_loop_correct; auto. lia. Qed.

(** ** prime_list *)
Lemma prime_list_from_correct fuel L : forall a, (1 <= a)%Z -> StronglySorted Z.lt L ->
  Forall prime L -> Forall (fun p => (a < p < is_prime_limit)%Z /\ (p <= Z.of_nat fuel)%Z) L ->
  (forall p q, In q L -> (a < p <= q)%Z -> prime p -> In p L) ->
  prime_list_from fuel (length L) a = Some (Ok L).
Proof.
  induction L as [|q L IH]; intros a Ha HS HP HB HC; cbn [length prime_list_from]; [reflexivity|].
  inversion HS as [|? ? HS1 HS2]; subst. inversion HP as [|? ? HP1 HP2]; subst.
  inversion HB as [|? ? [HB1 HB1'] HB2]; subst.
  rewrite (@next_prime_correct q a); auto; [|lia|lia|].
  - rewrite (IH q); auto; [lia| |].
    + rewrite Forall_forall in *. intros p Hp. specialize (HB2 p Hp). specialize (HS2 p Hp). lia.
    + intros p r Hr Hpr Pp. destruct (HC p r (or_intror Hr)) as [<-|Hin]; [lia|exact Pp|lia|exact Hin].
  - intros p Hp Pp. destruct (HC p q (or_introl eq_refl)) as [<-|Hin]; [lia|exact Pp|lia|].
    rewrite Forall_forall in HS2. specialize (HS2 p Hin). lia.
Qed.

(** ** There is always a next prime. *)
Lemma has_prime_divisor n : (2 <= n)%Z -> exists p, prime p /\ (p | n)%Z.
Proof.
  assert (A : forall k n, (n <= Z.of_nat k)%Z -> (2 <= n)%Z -> exists p, prime p /\ (p | n)%Z).
  { induction k as [|k IH]; intros m Hm H2; [lia|].
    destruct (prime_dec m) as [P|NP]; [exists m; split; [exact P|apply Z.divide_refl]|].
    destruct (not_prime_divide m) as [d [Hd D]]; [lia|exact NP|].
    destruct (IH d) as [p [Pp Dp]]; [lia|lia|]. exists p. split; [exact Pp|].
    apply (Z.divide_trans _ d); assumption. }
  intros H. apply (A (Z.to_nat n)); lia.
Qed.

Fixpoint zfact (n : nat) : Z := match n with O => 1%Z | S k => (Z.of_nat (S k) * zfact k)%Z end.
Lemma zfact_pos n : (1 <= zfact n)%Z.
Proof. induction n; cbn [zfact]; nia. Qed.
Lemma zfact_div n d : (1 <= d <= Z.of_nat n)%Z -> (d | zfact n)%Z.
Proof.
  induction n as [|n IH]; intros H; [lia|]. cbn [zfact].
  destruct (Z.eq_dec d (Z.of_nat (S n))) as [->|]; [exists (zfact n); ring|].
  apply Z.divide_mul_r, IH. lia.
Qed.
Lemma next_prime_exists a : exists q, prime q /\ (a < q)%Z /\ forall p, (a < p < q)%Z -> ~ prime p.
Proof.
  assert (E : exists q, prime q /\ (a < q)%Z).
  { destruct (@has_prime_divisor (zfact (Z.to_nat a) + 1)) as [p [Pp Dp]]; [pose proof (zfact_pos (Z.to_nat a)); lia|].
    exists p. split; [exact Pp|]. destruct (Z_lt_le_dec a p); [assumption|].
    pose proof (prime_ge_2 _ Pp). exfalso.
    assert ((p | zfact (Z.to_nat a))%Z) by (apply zfact_div; lia).
    assert (D1 : (p | 1)%Z).
    { replace 1%Z with (zfact (Z.to_nat a) + 1 - zfact (Z.to_nat a))%Z by ring.
      apply Z.divide_sub_r; assumption. }
    apply Z.divide_1_r_nonneg in D1; lia. }
  destruct E as [q0 [P0 L0]].
  assert (A : forall k q, (q - a <= Z.of_nat k)%Z -> prime q -> (a < q)%Z ->
    exists q, prime q /\ (a < q)%Z /\ forall p, (a < p < q)%Z -> ~ prime p).
  { induction k as [|k IH]; intros q Hk Pq Lq; [lia|].
    assert (D : (exists p, (a < p < q)%Z /\ prime p) \/ forall p, (a < p < q)%Z -> ~ prime p).
    { clear - Pq. remember (Z.to_nat (q - a)) as m eqn:Em.
      assert (B : forall m, (exists p, (a < p < a + 1 + Z.of_nat m)%Z /\ prime p) \/
                 forall p, (a < p < a + 1 + Z.of_nat m)%Z -> ~ prime p).
      { clear. induction m as [|m [[p [Hp Pp]]|IH]].
        - right. intros p Hp. lia.
        - left. exists p. split; [lia|exact Pp].
        - destruct (prime_dec (a + 1 + Z.of_nat m)) as [P|NP].
          + left. exists (a + 1 + Z.of_nat m)%Z. split; [lia|exact P].
          + right. intros p Hp. destruct (Z.eq_dec p (a + 1 + Z.of_nat m)) as [->|]; [exact NP|].
            apply IH. lia. }
      destruct (B m) as [[p [Hp Pp]]|N].
      - destruct (Z_lt_le_dec p q); [left; exists p; split; [lia|exact Pp]|].
        destruct (B (m - 1)) as [[p' [Hp' Pp']]|N]; [left; exists p'; split; [lia|exact Pp']|].
        right. intros r Hr. apply N. lia.
      - right. intros p Hp. apply N. lia. }
    destruct D as [[p [Hp Pp]]|N]; [apply (IH p); [lia|exact Pp|lia]|].
    exists q. auto. }
  apply (A (Z.to_nat (q0 - a)) q0); [lia|assumption|assumption].
Qed.
