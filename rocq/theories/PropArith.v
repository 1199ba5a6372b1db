(** C62-C65: compile-time arithmetic behind the units (scicpp/core/units/arithmetic.hpp).
    [prime], [rel_prime] and divisibility are the standard library's (Znumtheory). *)
From Verif Require Import Base Arith ArithFacts ArithFacts2 ArithNewton ArithValue Fermat BigPrime.
From Coq Require Import ZArith Znumtheory Lia List Sorted Reals Floats.
From Coq Require Import Lra.
Open Scope nat_scope.

(** ** C62 *)

(** For every n from 1 to 3037000499^2 - 1 (all but the last 5.9e9 values of intmax_t): the construction terminates, never
    writes outside of its table of [ct_log2 n] slots, and the used slots hold primes in strictly increasing
    order with positive multiplicities whose product of powers is n; the unused slots are (0, 0). *)
Theorem C62_prime_factors_partial : forall n : Z, (1 <= n < 3037000499 * 3037000499)%Z ->
  exists fuel0, forall fuel, fuel0 <= fuel ->
  exists F pad, prime_factors fuel n = Some (Ok (F ++ repeat (0%Z, 0%Z) pad)) /\
    length F + pad = ct_log2 n /\
    StronglySorted Z.lt (map fst F) /\
    Forall (fun f => prime (fst f) /\ (1 <= snd f)%Z) F /\
    fold_right Z.mul 1%Z (map (fun f => (fst f ^ snd f)%Z) F) = n.
Proof.
  intros n Hn. exists (Z.to_nat (3 * n)). intros fuel Hf.
  destruct (@prime_factors_correct n Hn fuel ltac:(lia)) as [F [A [B [C [D L]]]]].
  exists F, (ct_log2 n - length F). unfold pf_table in A.
  repeat split; auto; [lia| |].
  - clear - C. induction F as [|f F IH]; [constructor|]. constructor.
    + apply IH. intros i j H. apply (C (S i) (S j)). cbn [length]. lia.
    + apply Forall_map, Forall_forall. intros g Hg. destruct (In_nth _ _ (0%Z, 0%Z) Hg) as [i [Hi Ei]].
      specialize (C 0 (S i)). cbn [length nth] in C. rewrite Ei in C. apply C. lia.
  - rewrite <- D. clear. induction F as [|f F IH]; [reflexivity|]. cbn [map fold_right]. rewrite IH. reflexivity.
Qed.
Print Assumptions C62_prime_factors_partial.

(** What happens above: for every prime from 3037000499^2 on, z * z overflows before the loop can end;
    2^63 - 25 is such a prime and is an intmax_t value. *)
Theorem C62_overflow_refuted :
  (forall n : Z, prime n -> (3037000499 * 3037000499 <= n)%Z ->
     exists fuel0, forall fuel, fuel0 <= fuel -> prime_factors fuel n = Some UB) /\
  prime (2 ^ 63 - 25) /\ (3037000499 * 3037000499 <= 2 ^ 63 - 25 <= 2 ^ 63 - 1)%Z.
Proof.
  split; [|split; [exact big_prime_prime|lia]].
  intros n P Hn. exists (Z.to_nat (isqrt_imax + 1)). intros fuel Hf.
  apply pf_loop_overflow; auto; unfold isqrt_imax in *; lia.
Qed.
Print Assumptions C62_overflow_refuted.

Example C62_nonvacuous :
  prime_factors 1000 360 = Some (Ok [(2, 3); (3, 2); (5, 1); (0, 0); (0, 0); (0, 0); (0, 0); (0, 0); (0, 0)]%Z) /\
  prime_factors 3000 997 = Some (Ok ((997, 1) :: repeat (0, 0) 9)%Z) /\
  prime_factors 10 1 = Some (Ok [(0, 0)]%Z).
Proof. vm_compute. repeat split; reflexivity. Qed.

(** ** C63 *)

Theorem C63_is_prime_partial : forall n : Z, (2 <= n < 3037000493 * 3037000493)%Z ->
  exists fuel0, forall fuel, fuel0 <= fuel ->
  exists b, is_prime fuel n = Some (Ok b) /\ (b = true <-> prime n).
Proof.
  intros n Hn. exists (Z.to_nat n). intros fuel Hf. apply is_prime_correct; [exact Hn|lia].
Qed.
Print Assumptions C63_is_prime_partial.

(** Below 2 the answer is "odd and not a multiple of 3": 1, -1, -5, ... are reported prime. *)
Theorem C63_is_prime_refuted :
  (forall fuel n, 1 <= fuel -> (n <= 1)%Z -> ~ (2 | n)%Z -> ~ (3 | n)%Z -> is_prime fuel n = Some (Ok true)) /\
  (forall n, (n <= 1)%Z -> ~ prime n) /\
  is_prime 1 1 = Some (Ok true) /\ is_prime 1 (-5) = Some (Ok true) /\
  next_prime 1 0 = Some (Ok 1%Z) /\ ~ prime 1.
Proof.
  split; [|split; [|split; [|split; [|split]]]]; try reflexivity.
  - intros fuel n Hf Hn N2 N3. rewrite is_prime_small by assumption. do 2 f_equal.
    destruct (Z.even n) eqn:E.
    + exfalso. apply N2. apply Z.even_spec in E. destruct E as [m ->]. exists m. ring.
    + destruct (Z.eqb_spec (Z.rem n 3) 0) as [E3|]; [|reflexivity].
      exfalso. apply N3. apply Z.rem_divide; [lia|exact E3].
  - intros n Hn P. apply prime_ge_2 in P. lia.
  - apply not_prime_1.
Qed.
Print Assumptions C63_is_prime_refuted.

(** Near the end of the intmax_t range is_prime overflows on every prime. *)
Theorem C63_is_prime_overflow_refuted :
  (forall n : Z, prime n -> (3037000493 * 3037000493 <= n)%Z ->
     exists fuel0, forall fuel, fuel0 <= fuel -> is_prime fuel n = Some UB) /\
  prime (2 ^ 63 - 25) /\ (3037000493 * 3037000493 <= 2 ^ 63 - 25 <= 2 ^ 63 - 1)%Z.
Proof.
  split; [|split; [exact big_prime_prime|lia]].
  intros n P Hn. exists (Z.to_nat 506166750). intros fuel Hf. apply is_prime_overflow; [exact P|exact Hn|lia].
Qed.
Print Assumptions C63_is_prime_overflow_refuted.

(** next_prime(a), a >= 1, is the least prime above a (there is always one; the theorem needs it in the range of
    [C63_is_prime_partial]). *)
Theorem C63_next_prime_partial :
  (forall a : Z, exists q, prime q /\ (a < q)%Z /\ forall p, (a < p < q)%Z -> ~ prime p) /\
  forall a q : Z, (1 <= a)%Z -> prime q -> (a < q < 3037000493 * 3037000493)%Z ->
    (forall p, (a < p < q)%Z -> ~ prime p) ->
    exists fuel0, forall fuel, fuel0 <= fuel -> next_prime fuel a = Some (Ok q).
Proof.
  split; [exact next_prime_exists|].
  intros a q Ha Pq Hq NP. exists (Z.to_nat q). intros fuel Hf.
  apply next_prime_correct; auto; try lia. exact (proj2 Hq).
Qed.
Print Assumptions C63_next_prime_partial.

(** prime_list<N, First> is First followed by the N - 1 primes that come after it, in order.
    With the default First = 1 the list starts with 1 (used as the identifier of "dimensionless"). *)
Theorem C63_prime_list_partial : forall (First : Z) (L : list Z),
  (1 <= First)%Z ->
  StronglySorted Z.lt L -> Forall prime L ->
  Forall (fun p => (First < p < 3037000493 * 3037000493)%Z) L ->
  (forall p q, prime p -> In q L -> (First < p <= q)%Z -> In p L) ->
  exists fuel0, forall fuel, fuel0 <= fuel -> prime_list fuel (S (length L)) First = Some (Ok (First :: L)).
Proof.
  intros a L Ha HS HP HB HC.
  exists (Z.to_nat (fold_right Z.max 0%Z L)). intros fuel Hf. unfold prime_list.
  rewrite prime_list_from_correct; auto.
  - rewrite Forall_forall in *. intros p Hp. specialize (HB p Hp). split; [exact HB|].
    assert (p <= fold_right Z.max 0 L)%Z; [|lia].
    clear - Hp. induction L as [|q L IH]; [destruct Hp|]. cbn [fold_right].
    destruct Hp as [->|Hp]; [lia|]. specialize (IH Hp). lia.
  - intros p q Hq Hp Pp. apply (HC p q); assumption.
Qed.
Print Assumptions C63_prime_list_partial.

Example C63_nonvacuous :
  is_prime 100 97 = Some (Ok true) /\ is_prime 100 91 = Some (Ok false) /\ next_prime 100 24 = Some (Ok 29%Z) /\
  prime_list 100 11 1 = Some (Ok [1; 2; 3; 5; 7; 11; 13; 17; 19; 23; 29]%Z).
Proof. vm_compute. repeat split; reflexivity. Qed.

(** ** C64 *)

(** is_exact_root recognises the perfect k-th powers, and compute_root is then the k-th root. *)
Theorem C64_exact_root : forall (n k : Z) (fuel : nat) (t : list (Z * Z)),
  (1 <= n)%Z -> (1 <= k)%Z -> prime_factors fuel n = Some (Ok t) ->
  (is_exact_root t k = true <-> exists m, (1 <= m)%Z /\ (n = m ^ k)%Z) /\
  (forall m, (1 <= m)%Z -> (n = m ^ k)%Z -> compute_root t k = m).
Proof.
  intros n k fuel t Hn Hk H. destruct (prime_factors_sound _ Hn H) as [F [-> [G [S P]]]].
  assert (I : is_exact_root (pf_table n F) k = true <-> exists m, (1 <= m)%Z /\ (n = m ^ k)%Z).
  { rewrite is_exact_root_table by assumption. rewrite exact_root_iff by (auto using sorted_NoDup).
    rewrite P. reflexivity. }
  split; [exact I|]. intros m Hm E. rewrite compute_root_table by assumption.
  apply (@pow_root_inj k); try assumption; [apply root_prod_pos; assumption|].
  rewrite root_prod_pow; [congruence|assumption|assumption|].
  apply (proj1 (is_exact_root_table n Hk G)). apply I. exists m. auto.
Qed.
Print Assumptions C64_exact_root.

(** Integer ct_root<N>(x), x >= 1, s = floor of the N-th root: it returns s when x < s^(N-1) (s + N) ... *)
Theorem C64_ct_root_integer_partial : forall N x s : Z, (2 <= N)%Z -> (1 <= s)%Z ->
  (s ^ N <= x < (s + 1) ^ N)%Z -> (x < s ^ (N - 1) * (s + N))%Z ->
  exists fuel0, forall fuel, fuel0 <= fuel -> ct_root_int fuel N x = Some s.
Proof.
  intros N x s HN Hs Hr HX. exists (Z.to_nat (x + 2)). intros fuel Hf. apply ct_root_int_some; auto.
  assert (1 <= x)%Z by (apply (x_pos HN Hs Hr)). lia.
Qed.
Print Assumptions C64_ct_root_integer_partial.

(** ... and never returns otherwise; for square roots: exactly when x + 1 is a perfect square. *)
Theorem C64_ct_root_integer_refuted :
  (forall N x s : Z, (2 <= N)%Z -> (1 <= s)%Z ->
     (s ^ N <= x < (s + 1) ^ N)%Z -> (s ^ (N - 1) * (s + N) <= x)%Z ->
     forall fuel, ct_root_int fuel N x = None) /\
  (forall m fuel, (2 <= m)%Z -> ct_root_int fuel 2 (m * m - 1) = None) /\
  (forall fuel, ct_root_int fuel 2 3 = None) /\ (forall fuel, ct_root_int fuel 3 7 = None).
Proof.
  assert (A : forall N x s : Z, (2 <= N)%Z -> (1 <= s)%Z ->
     (s ^ N <= x < (s + 1) ^ N)%Z -> (s ^ (N - 1) * (s + N) <= x)%Z ->
     forall fuel, ct_root_int fuel N x = None).
  { intros N x s HN Hs Hr HX fuel. apply (@ct_root_int_none N x s); auto. lia. }
  assert (B : forall m fuel, (2 <= m)%Z -> ct_root_int fuel 2 (m * m - 1) = None).
  { intros m fuel Hm. apply (A 2%Z (m * m - 1)%Z (m - 1)%Z); lia. }
  split; [exact A|]. split; [exact B|]. split.
  - intros fuel. apply (B 2%Z). lia.
  - intros fuel. apply (A 3%Z 7%Z 1%Z); cbn; lia.
Qed.
Print Assumptions C64_ct_root_integer_refuted.

(** Whatever an integer ct_root returns is the floor of the root (x = 0, N = 1 included). *)
Theorem C64_ct_root_never_wrong : forall (N x v : Z) fuel, (1 <= N)%Z -> (0 <= x)%Z ->
  ct_root_int fuel N x = Some v -> (0 <= v /\ v ^ N <= x < (v + 1) ^ N)%Z.
Proof.
  intros N x v fuel HN Hx H.
  destruct (Z.eq_dec N 1) as [->|N1].
  { unfold ct_root_int, ct_root in H. destruct (Z.ltb_spec x 0); [lia|]. cbn in H.
    assert (v = x) by congruence. subst v. rewrite !Z.pow_1_r. lia. }
  destruct (Z.eq_dec x 0) as [->|X0].
  { unfold ct_root_int, ct_root in H. destruct (Z.ltb_spec 0 0); [lia|].
    destruct (Z.eqb_spec N 1); [contradiction|]. destruct fuel as [|fuel]; [discriminate|].
    cbn [root_newton_raphson] in H. rewrite Z.eqb_refl in H. assert (v = 0)%Z by congruence. subst v.
    rewrite Z.pow_0_l by lia. rewrite Z.pow_1_l by lia. lia. }
  (* the floor of the root exists *)
  assert (E : exists s, (1 <= s)%Z /\ (s ^ N <= x < (s + 1) ^ N)%Z).
  { assert (A : forall k, (0 <= k)%Z -> (x < (k + 1) ^ N)%Z -> exists s, (1 <= s)%Z /\ (s ^ N <= x < (s + 1) ^ N)%Z).
    { apply (natlike_ind (fun k => (x < (k + 1) ^ N)%Z -> exists s, (1 <= s)%Z /\ (s ^ N <= x < (s + 1) ^ N)%Z)).
      - change (0 + 1)%Z with 1%Z. rewrite Z.pow_1_l by lia. lia.
      - intros k Hk IH L. replace (Z.succ k)%Z with (k + 1)%Z in L by lia.
        destruct (Z_lt_le_dec x ((k + 1) ^ N)) as [L2|L2]; [exact (IH L2)|].
        exists (k + 1)%Z. split; [lia|]. split; [exact L2|exact L]. }
    apply (A x Hx).
    assert ((x + 1) ^ 1 <= (x + 1) ^ N)%Z by (apply Z.pow_le_mono_r; lia). rewrite Z.pow_1_r in H0. lia. }
  destruct E as [s [Hs Hr]].
  destruct (Z_lt_le_dec x (s ^ (N - 1) * (s + N))) as [L|L].
  - assert (HN2 : (2 <= N)%Z) by lia.
    destruct (C64_ct_root_integer_partial N x s HN2 Hs Hr L) as [f0 Hf0].
    assert (M : forall f1 f2 c p r, f1 <= f2 -> irnr f1 N x c p = Some r -> irnr f2 N x c p = Some r).
    { clear. induction f1 as [|f1 IH]; intros f2 c p r Hf; [discriminate|].
      destruct f2 as [|f2]; [lia|]. unfold irnr in *. cbn [root_newton_raphson].
      destruct (Z.eqb c p); [auto|]. apply IH. lia. }
    specialize (Hf0 (Nat.max f0 fuel) (Nat.le_max_l _ _)).
    unfold ct_root_int, ct_root in H, Hf0. destruct (Z.ltb_spec x 0); [lia|].
    destruct (Z.eqb_spec N 1); [contradiction|]. fold irnr in H, Hf0.
    apply (M fuel (Nat.max f0 fuel)) in H; [|apply Nat.le_max_r].
    assert (v = s) by congruence. subst v. lia.
  - rewrite (proj1 C64_ct_root_integer_refuted N x s) in H; [discriminate|lia|exact Hs|exact Hr|exact L].
Qed.
Print Assumptions C64_ct_root_never_wrong.

(** Exact real arithmetic, x = r^N with r > 0 and N = n + 1 >= 2: if the recursion stops it stops on r; the iterates from
    the first on stay above r and their distance to r shrinks at least by the factor (N-1)/N each time.
    (Rounding is not covered; see the next theorem.) *)
Theorem C64_ct_root_real_partial : forall (n : nat) (x r : R), 1 <= n -> (0 < r)%R -> (r ^ S n = x)%R ->
  (forall fuel v, ct_root_real fuel (Z.of_nat (S n)) x = Some v -> v = r) /\
  exists u : nat -> R, u 0 = x /\
    (forall k, u (S k) = (INR n * u k + x / u k ^ n) / INR (S n))%R /\
    forall k, (0 <= u (S k) - r <= (INR n / INR (S n)) ^ k * (u 1%nat - r))%R.
Proof.
  intros n x r Hn Hr Hx. assert (Xp : (0 < x)%R) by (rewrite <- Hx; apply pow_lt; exact Hr). split.
  - intros fuel v. unfold ct_root_real, ct_root. unfold Rltb'. destruct (Rlt_dec x 0); [lra|].
    destruct (Z.eqb_spec (Z.of_nat (S n)) 1); [lia|]. intros H.
    assert (P := fun k => @newton_iter_pos n r x k Hr Hx).
    assert (V : (0 < v)%R).
    { assert (G : forall fuel k p, root_newton_raphson 1%R Rplus Rmult Rdiv Reqb IZR fuel (Z.of_nat (S n)) x
        (newton_iter (Z.of_nat (S n)) x k) p = Some v -> (0 < v)%R).
      { clear - P. induction fuel as [|fuel IH]; intros k p; [discriminate|]. cbn [root_newton_raphson].
        destruct (Reqb _ p); [intros E; assert (v = newton_iter (Z.of_nat (S n)) x k) by congruence; subst v; apply P|].
        apply (IH (S k)). }
      apply (G fuel 0 0%R). exact H. }
    assert (E : (v ^ S n = x)%R).
    { apply (@rrnr_exact n x Xp fuel 0 v 0%R); auto. }
    rewrite <- Hx in E. assert (NZ : S n <> 0) by lia.
    destruct (Rtotal_order v r) as [L|[L|L]]; [|exact L|]; exfalso.
    + assert (v ^ S n < r ^ S n)%R; [|lra].
      clear - L V. induction n as [|n IH]; [cbn; lra|].
      change (v * v ^ S n < r * r ^ S n)%R. assert (0 < v ^ S n)%R by (apply pow_lt; exact V). nra.
    + assert (r ^ S n < v ^ S n)%R; [|lra].
      clear - L Hr. induction n as [|n IH]; [cbn; lra|].
      change (r * r ^ S n < v * v ^ S n)%R. assert (0 < r ^ S n)%R by (apply pow_lt; exact Hr). nra.
  - exists (newton_iter (Z.of_nat (S n)) x). split; [reflexivity|]. split.
    + intros k. cbn [newton_iter]. apply rstep_eq.
    + intros k. apply newton_converges; assumption.
Qed.
Print Assumptions C64_ct_root_real_partial.

(** binary64: the recursion can alternate between two neighbouring doubles for ever. *)
Theorem C64_ct_root_binary64_refuted :
  (forall fuel, ct_root_f64 fuel 3 0.5%float = None) /\
  (forall fuel, ct_root_f64 fuel 3 4%float = None) /\
  (forall fuel, ct_root_f64 fuel 4 2%float = None).
Proof.
  split; [|split]; intros fuel.
  - eapply (@f64_never 3 0.5%float 40); [vm_compute; reflexivity|vm_compute; reflexivity|vm_compute; reflexivity| | | |discriminate];
      vm_compute; reflexivity.
  - eapply (@f64_never 3 4%float 40); [vm_compute; reflexivity|vm_compute; reflexivity|vm_compute; reflexivity| | | |discriminate];
      vm_compute; reflexivity.
  - eapply (@f64_never 4 2%float 40); [vm_compute; reflexivity|vm_compute; reflexivity|vm_compute; reflexivity| | | |discriminate];
      vm_compute; reflexivity.
Qed.
Print Assumptions C64_ct_root_binary64_refuted.

Example C64_nonvacuous :
  (exists t, prime_factors 100000 10648 = Some (Ok t) /\ is_exact_root t 3 = true /\ compute_root t 3 = 22%Z) /\
  ct_root_int 100 3 10648 = Some 22%Z /\ ct_root_int 100 2 17 = Some 4%Z /\
  ct_root_f64 100 2 2%float = Some 1.4142135623730949%float.
Proof.
  split; [|vm_compute; repeat split; reflexivity].
  eexists. split; [vm_compute; reflexivity|]. split; reflexivity.
Qed.

(** ** C65 *)

(** The number a root ratio stands for. *)
Definition denotes (x : rr) (v : R) : Prop :=
  v = Rpower (IZR (rr_num x) / IZR (rr_den x)) (/ IZR (rr_root x)).

(** Results satisfy the static_asserts again, and denote the product, the quotient, the power and the root. *)
Theorem C65_exact : forall fuel (x y z : rr) (a b : R) (k : Z) (N : nat), rr_wf x -> rr_wf y -> (1 <= k)%Z ->
  denotes x a -> denotes y b ->
  (rr_multiply fuel x y = Some z -> rr_wf z /\ denotes z (a * b)) /\
  (rr_divide fuel x y = Some z -> rr_wf z /\ denotes z (a / b)) /\
  (rr_power fuel x N = Some z -> rr_wf z /\ denotes z (a ^ N)) /\
  (rr_root_impl fuel x k = Some z -> rr_wf z /\ denotes z (Rpower a (/ IZR k))).
Proof.
  intros fuel x y z a b k N Wx Wy Hk -> ->. fold (rr_val x). fold (rr_val y). unfold denotes. fold (rr_val z).
  split; [|split; [|split]]; intros H.
  - destruct (rr_multiply_val fuel Wx Wy H); auto.
  - destruct (rr_divide_val fuel Wx Wy H); auto.
  - destruct (rr_power_val fuel N Wx H); auto.
  - destruct (rr_root_impl_val fuel Wx Hk H); auto.
Qed.
Print Assumptions C65_exact.

(** The computations finish when the numbers under the common root stay in the range of C62. *)
Theorem C65_defined : forall x y : rr, rr_wf x -> rr_wf y ->
  let g := Z.gcd (rr_root x) (rr_root y) in
  let num := (rr_num x ^ (rr_root y / g) * rr_num y ^ (rr_root x / g))%Z in
  let den := (rr_den x ^ (rr_root y / g) * rr_den y ^ (rr_root x / g))%Z in
  (num < 3037000499 * 3037000499)%Z -> (den < 3037000499 * 3037000499)%Z ->
  exists fuel0, forall fuel, fuel0 <= fuel -> exists z, rr_multiply fuel x y = Some z.
Proof.
  intros x y Wx Wy g num den L1 L2. exists (Z.to_nat (Z.max (3 * num) (3 * den))). intros fuel Hf.
  apply rr_multiply_total; auto; fold g; fold num; fold den; lia.
Qed.
Print Assumptions C65_defined.

(** Two root ratios with the same root and the same value are the same type ... *)
Theorem C65_canonical_partial : forall x y v, rr_wf x -> rr_wf y -> rr_root x = rr_root y ->
  denotes x v -> denotes y v -> x = y.
Proof. intros x y v Wx Wy ER Hx Hy. apply rr_canonical; auto. unfold rr_val. congruence. Qed.
Print Assumptions C65_canonical_partial.

(** ... but the root is not reduced: the 4th root of 4 and the square root of 2 are the same number
    and different types (so root<4>(area) and sqrt(length) cannot be added). *)
Theorem C65_canonical_refuted :
  exists x y v, rr_root_impl 100 (RR 4 1 1) 4 = Some x /\ rr_root_impl 100 (RR 2 1 1) 2 = Some y /\
    denotes x v /\ denotes y v /\ x <> y.
Proof.
  exists (RR 4 1 4), (RR 2 1 2), (Rpower 2 (/ 2)).
  split; [vm_compute; reflexivity|]. split; [vm_compute; reflexivity|]. unfold denotes. cbn [rr_num rr_den rr_root].
  split; [|split; [|discriminate]].
  - replace (4 / 1)%R with (Rpower 2 2).
    + rewrite Rpower_mult. f_equal. lra.
    + replace 2%R with (INR 2) at 2 by (cbn; lra). rewrite Rpower_pow by lra. cbn. lra.
  - f_equal. lra.
Qed.
Print Assumptions C65_canonical_refuted.

(** common_root_ratio: with R the product of the two roots, the R-th powers of both values are integer multiples
    m, n of that of the common ratio, and m and n are coprime (no larger common ratio exists).  For plain
    ratios (roots 1) these are the values themselves. *)
Theorem C65_common : forall fuel x y c a b v, rr_wf x -> rr_wf y -> rr_common fuel x y = Some c ->
  denotes x a -> denotes y b -> denotes c v ->
  rr_wf c /\ exists m n : Z, (1 <= m)%Z /\ (1 <= n)%Z /\ Z.gcd m n = 1%Z /\
    let R := Z.to_nat (rr_root x * rr_root y) in
    (a ^ R = IZR m * v ^ R)%R /\ (b ^ R = IZR n * v ^ R)%R.
Proof.
  intros fuel x y c a b v Wx Wy H -> -> ->.
  destruct (rr_common_val fuel Wx Wy H) as [Wc [m [n [Hm [Hn [G [E1 E2]]]]]]].
  split; [exact Wc|]. exists m, n. auto.
Qed.
Print Assumptions C65_common.

Example C65_nonvacuous :
  rr_wf (RR 2 1 2) /\ rr_wf (RR 3 4 3) /\
  rr_multiply 100 (RR 2 1 2) (RR 2 1 2) = Some (RR 2 1 1) /\
  rr_multiply 1000 (RR 2 1 2) (RR 3 4 3) = Some (RR 9 2 6) /\
  rr_divide 1000 (RR 3 5 1) (RR 9 5 1) = Some (RR 1 3 1) /\
  rr_power 100 (RR 2 1 3) 3 = Some (RR 2 1 1) /\
  rr_common 1000 (RR 1000 1 1) (RR 1200 7 1) = Some (RR 200 7 1).
Proof. vm_compute. repeat split; reflexivity. Qed.
