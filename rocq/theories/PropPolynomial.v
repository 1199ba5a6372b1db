(** Properties C36-C42 (scicpp/polynomials/polynomial.hpp).  Ring/field parameters are the element type's exact arithmetic;
    [nth k P rO] is the coefficient of x^k (0 beyond the end); [nsum] is f 0 + ... + f (n-1); [rpow] is x^n (Spec.v). *)
From Coq Require Import ZArith Ring Field Reals.
From Verif Require Import Base Functional FunctionalProofs Spec SumLib BaseQc EqualFacts Numeric Convolve ConvolveFacts Polynomial PolynomialFacts PolynomialField PolyReal PolyExtra.
From Coq Require Import Lqa.
Open Scope nat_scope.

(** C36 *)
Theorem C36_polyval : forall (T : Type) (rO rI : T) radd rmul rsub ropp, ring_theory rO rI radd rmul rsub ropp eq ->
  forall (x : T) (P : list T),
  polyval rO radd rmul x P = nsum rO radd (fun i => rmul (nth i P rO) (rpow rI rmul x i)) (length P).
Proof. intros T rO rI radd rmul rsub ropp Rth x P. exact (polyval_eval Rth x P). Qed.
Print Assumptions C36_polyval.
Theorem C36_polyval_array : forall (T : Type) (rO rI : T) radd rmul rsub ropp, ring_theory rO rI radd rmul rsub ropp eq ->
  forall (xs P : list T),
  polyval_array rO radd rmul xs P =
  map (fun x => nsum rO radd (fun i => rmul (nth i P rO) (rpow rI rmul x i)) (length P)) xs.
Proof.
  intros T rO rI radd rmul rsub ropp Rth xs P. unfold polyval_array. rewrite transform1_map. apply map_ext. intros x. exact (polyval_eval Rth x P).
Qed.
Print Assumptions C36_polyval_array.
Example C36_nonvacuous : polyval 0%Z Z.add Z.mul 2%Z [1; -3; 5]%Z = 15%Z.
Proof. reflexivity. Qed.

(** C37 *)
Theorem C37_add_sub : forall (T : Type) (rO rI : T) radd rmul rsub ropp, ring_theory rO rI radd rmul rsub ropp eq ->
  forall P Q : list T, exists A S,
  polyadd rO radd P Q = Ok A /\ polysub rO rsub ropp P Q = Ok S /\
  length A = Nat.max (length P) (length Q) /\ length S = Nat.max (length P) (length Q) /\
  (forall k, nth k A rO = radd (nth k P rO) (nth k Q rO)) /\
  (forall k, nth k S rO = rsub (nth k P rO) (nth k Q rO)) /\
  polyadd rO radd P (map ropp Q) = Ok S /\
  forall x, polyval rO radd rmul x A = radd (polyval rO radd rmul x P) (polyval rO radd rmul x Q) /\
            polyval rO radd rmul x S = rsub (polyval rO radd rmul x P) (polyval rO radd rmul x Q).
Proof.
  intros T rO rI radd rmul rsub ropp Rth P Q.
  exists (zadd (rO := rO) (radd := radd) P Q), (zsub (rO := rO) (rsub := rsub) P Q).
  split; [exact (polyadd_spec Rth P Q)|]. split; [exact (polysub_spec Rth P Q)|]. split; [apply zadd_length|]. split; [apply zsub_length|].
  split; [exact (zadd_coef Rth P Q)|]. split; [exact (zsub_coef Rth P Q)|]. split.
  - rewrite (polyadd_spec Rth), <- (zsub_zadd_opp Rth). reflexivity.
  - intros x. split; [exact (eval_zadd Rth x P Q)|exact (eval_zsub Rth x P Q)].
Qed.
Print Assumptions C37_add_sub.
Theorem C37_mul : forall (T : Type) (rO rI : T) radd rmul rsub ropp, ring_theory rO rI radd rmul rsub ropp eq ->
  forall P Q : list T, P <> [] \/ Q <> [] -> exists M,
  polymul rO radd rmul P Q = Ok M /\ length M = length P + length Q - 1 /\
  (forall k, nth k M rO = nsum rO radd (fun i => rmul (nth i P rO) (nth (k - i) Q rO)) (S k)) /\
  forall x, polyval rO radd rmul x M = rmul (polyval rO radd rmul x P) (polyval rO radd rmul x Q).
Proof.
  intros T rO rI radd rmul rsub ropp Rth P Q H. exists (cprod (rO := rO) (radd := radd) (rmul := rmul) P Q).
  split; [exact (polymul_spec Rth P Q H)|]. split; [apply cprod_length|]. split; [exact (cprod_coef Rth P Q)|].
  intros x. exact (eval_cprod Rth x P Q H).
Qed.
Print Assumptions C37_mul.
(** both overloads of polymulx (copying, and in place on an rvalue) *)
Theorem C37_mulx : forall (T : Type) (rO rI : T) radd rmul rsub ropp, ring_theory rO rI radd rmul rsub ropp eq ->
  forall P : list T, exists M,
  polymulx rO P = Ok M /\ polymulx_rvalue rO P = M /\ length M = S (length P) /\ nth 0 M rO = rO /\ (forall k, nth (S k) M rO = nth k P rO) /\
  forall x, polyval rO radd rmul x M = rmul (polyval rO radd rmul x P) x.
Proof.
  intros T rO rI radd rmul rsub ropp Rth P. exists (rO :: P).
  split; [exact (polymulx_spec P)|]. split; [exact (polymulx_rvalue_spec P)|]. do 3 (split; [reflexivity|]).
  intros x. rewrite (polyval_cons (radd := radd)). rewrite (Radd_comm Rth). apply (Radd_0_l Rth).
Qed.
Print Assumptions C37_mulx.
(** both overloads of polypow, non-empty P *)
Theorem C37_pow : forall (T : Type) (rO rI : T) radd rmul rsub ropp, ring_theory rO rI radd rmul rsub ropp eq ->
  forall (P : list T) (n fuel : nat), P <> [] -> n <= fuel -> exists M,
  polypow rO rI radd rmul P n = Ok M /\ polypow_array rO rI radd rmul fuel n P = Ok M /\
  length M = n * (length P - 1) + 1 /\
  forall x, polyval rO radd rmul x M = rpow rI rmul (polyval rO radd rmul x P) n.
Proof.
  intros T rO rI radd rmul rsub ropp Rth P n fuel H Hf. exists (ppow (rO := rO) (rI := rI) (radd := radd) (rmul := rmul) P n).
  split; [exact (polypow_spec Rth P n H)|]. split; [exact (polypow_array_spec Rth fuel n P Hf H)|]. split; [now apply ppow_length|].
  intros x. exact (eval_ppow Rth x P n H).
Qed.
Print Assumptions C37_pow.
(** the operators of class Polynomial agree with the free functions for non-empty operands *)
Theorem C37_class_operators_partial : forall (T : Type) (rO rI : T) radd rmul rsub ropp, ring_theory rO rI radd rmul rsub ropp eq ->
  forall P Q : list T, P <> [] -> Q <> [] ->
  poly_plus_assign rO radd P Q = polyadd rO radd P Q /\
  poly_minus_assign rO rsub ropp P Q = polysub rO rsub ropp P Q /\
  poly_mul_assign rO radd rmul P Q = polymul rO radd rmul P Q /\
  forall s x, polyval rO radd rmul x (poly_scale_assign rmul P s) = rmul (polyval rO radd rmul x P) s.
Proof.
  intros T rO rI radd rmul rsub ropp Rth P Q HP HQ.
  split; [rewrite (polyadd_spec Rth); exact (poly_plus_assign_spec Rth P Q HP HQ)|].
  split; [rewrite (polysub_spec Rth); exact (poly_minus_assign_spec Rth P Q HP HQ)|]. split; [reflexivity|].
  intros s x. unfold poly_scale_assign. rewrite transform1_map. exact (eval_scale Rth x P s).
Qed.
Print Assumptions C37_class_operators_partial.
(** FINDING: with an empty operand degree() wraps around: adding or subtracting an empty Polynomial reads out of range, and
    polypow of an empty vector throws *)
Theorem C37_empty_operand_refuted : forall (T : Type) (rO rI : T) radd rmul rsub ropp (P : list T) n, P <> [] -> 2 <= n ->
  poly_plus_assign rO radd P [] = UB /\ poly_minus_assign rO rsub ropp P [] = UB /\ polypow rO rI radd rmul [] n = Throw.
Proof.
  intros T rO rI radd rmul rsub ropp P n HP Hn. destruct P as [|c P]; [congruence|].
  split; [reflexivity|]. split; [reflexivity|]. unfold polypow.
  destruct (Nat.eqb_spec n 0); [lia|]. destruct (Nat.eqb_spec n 1); [lia|]. reflexivity.
Qed.
Print Assumptions C37_empty_operand_refuted.
Example C37_nonvacuous : polypow 0%Z 1%Z Z.add Z.mul [1; 1]%Z 5 = Ok [1; 5; 10; 10; 5; 1]%Z.
Proof. reflexivity. Qed.

(** C38.  Euclidean division: u = q v + r coefficient by coefficient, deg r < deg v. *)
Definition euclid {T} (rO : T) (radd rmul : T -> T -> T) (u v q r : list T) : Prop :=
  (forall k, nth k u rO = radd (nsum rO radd (fun i => rmul (nth i q rO) (nth (k - i) v rO)) (S k)) (nth k r rO)) /\
  (length r < length v \/ r = [rO]).
(** holds for monic divisors, constant divisors, and dividends of smaller degree *)
Theorem C38_polydiv_partial : forall (T : Type) (rO rI : T) radd rmul rsub ropp rdiv rinv,
  field_theory rO rI radd rmul rsub ropp rdiv rinv eq ->
  forall u v : list T, u <> [] -> v <> [] -> nth (length v - 1) v rO <> rO ->
  nth (length v - 1) v rO = rI \/ length v = 1 \/ length u < length v ->
  exists q r, polydiv rO rI rsub rmul rdiv u v = Ok (q, r) /\ euclid rO radd rmul u v q r /\
    forall x, polyval rO radd rmul x u = radd (rmul (polyval rO radd rmul x q) (polyval rO radd rmul x v)) (polyval rO radd rmul x r).
Proof. exact polydiv_partial. Qed.
Print Assumptions C38_polydiv_partial.
(** FINDING: for a non-monic divisor the remainder is right but the returned quotient is lc times the quotient *)
Theorem C38_polydiv_scaled_partial : forall (T : Type) (rO rI : T) radd rmul rsub ropp rdiv rinv,
  field_theory rO rI radd rmul rsub ropp rdiv rinv eq ->
  forall u v : list T, 2 <= length v -> length v <= length u -> nth (length v - 1) v rO <> rO ->
  exists q r, polydiv rO rI rsub rmul rdiv u v = Ok (q, r) /\
    euclid rO radd rmul u v (map (fun c => rdiv c (nth (length v - 1) v rO)) q) r /\ length q = length u - length v + 1.
Proof. exact polydiv_scaled. Qed.
Print Assumptions C38_polydiv_scaled_partial.
Theorem C38_polydiv_nonmonic_refuted : forall (T : Type) (rO rI : T) radd rmul rsub ropp rdiv rinv,
  field_theory rO rI radd rmul rsub ropp rdiv rinv eq ->
  forall u v : list T, 2 <= length v -> length v <= length u -> nth (length v - 1) v rO <> rO ->
  nth (length v - 1) v rO <> rI -> nth (length u - 1) u rO <> rO ->
  exists q r, polydiv rO rI rsub rmul rdiv u v = Ok (q, r) /\ ~ euclid rO radd rmul u v q r.
Proof. exact polydiv_nonmonic. Qed.
Print Assumptions C38_polydiv_nonmonic_refuted.
Theorem C38_empty_operand : forall (T : Type) (rO rI : T) rsub rmul rdiv (u v : list T), u = [] \/ v = [] ->
  polydiv rO rI rsub rmul rdiv u v = RequireFail.
Proof. intros T rO rI rsub rmul rdiv u v [->| ->]; [reflexivity|]. destruct u; reflexivity. Qed.
Print Assumptions C38_empty_operand.

Example C38_nonvacuous :
  nth 1 [qz 3; qz 1] 0%Qc = 1%Qc /\ (nth 1 [qz 3; qz 2] 0%Qc <> 0%Qc /\ nth 1 [qz 3; qz 2] 0%Qc <> 1%Qc) /\
  exists q r, polydiv 0%Qc 1%Qc Qcminus Qcmult Qcdiv [qz 7; qz 5; qz 1] [qz 3; qz 1] = Ok (q, r) /\
    map this q = [2#1; 1#1]%Q /\ map this r = [1#1]%Q.
Proof.
  split; [reflexivity|]. split; [split; discriminate|]. eexists. eexists. split; [vm_compute; reflexivity|]. split; reflexivity.
Qed.

(** C39 *)
Theorem C39_polyint_antiderivative : forall P : list R, P <> [] ->
  exists Q, rpolyint P 1 = Ok Q /\ length Q = S (length P) /\ rpolyval 0 Q = 0%R /\
  forall x, derivable_pt_lim (fun t => rpolyval t Q) x (rpolyval x P).
Proof. exact rpolyint_spec. Qed.
Print Assumptions C39_polyint_antiderivative.
Theorem C39_iterates : forall (P : list R) m n,
  (P <> [] -> (do Q <- rpolyint P (Z.of_nat m); rpolyint Q (Z.of_nat n)) = rpolyint P (Z.of_nat (m + n))) /\
  (do Q <- rpolyder P (Z.of_nat m); rpolyder Q (Z.of_nat n)) = rpolyder P (Z.of_nat (m + n)).
Proof. intros P m n. split; [exact (rpolyint_iter P m n)|exact (rpolyder_iter P m n)]. Qed.
Print Assumptions C39_iterates.
(** the std::array overload of polyint computes the same coefficients *)
Theorem C39_polyint_overloads : forall (T : Type) (rO rI : T) radd rmul rsub ropp rdiv rinv,
  field_theory rO rI radd rmul rsub ropp rdiv rinv eq -> forall (ofnat : nat -> T) (P : list T),
  polyint_once rO rdiv ofnat P = Ok (polyint_once_array rO rdiv ofnat P).
Proof. intros T rO rI radd rmul rsub ropp rdiv rinv F ofnat P. now rewrite polyint_once_spec, polyint_array_spec. Qed.
Print Assumptions C39_polyint_overloads.
(** polyder differentiates the polynomial whose coefficients are stored highest degree first *)
Theorem C39_polyder_descending_partial : forall P : list R, exists Q, rpolyder P 1 = Ok Q /\ length Q = length P - 1 /\
  forall x, derivable_pt_lim (fun t => rpolyval t (rev P)) x (rpolyval x (rev Q)).
Proof. exact rpolyder_spec. Qed.
Print Assumptions C39_polyder_descending_partial.
(** FINDING: so it is not the derivative in polyval's order, and polyder(polyint(P)) <> P *)
Theorem C39_polyder_refuted :
  (exists Q, rpolyder [0; 1]%R 1 = Ok Q /\ ~ derivable_pt_lim (fun t => rpolyval t [0; 1]%R) 0 (rpolyval 0 Q)) /\
  forall c : R, c <> 0%R -> (do Q <- rpolyint [c] 1; rpolyder Q 1) = Ok [0%R] /\ [0%R] <> [c].
Proof. exact polyder_refuted. Qed.
Print Assumptions C39_polyder_refuted.

Example C39_nonvacuous : rpolyint [1; 2]%R 1 = Ok [0; 1 / INR 1; 2 / INR 2]%R /\ rpolyder [1; 2; 3]%R 1 = Ok [1 * INR 2; 2 * INR 1]%R.
Proof. split; reflexivity. Qed.

(** C40 *)
Definition qpolytrim := polytrim 0%Qc (fun c t : Qc => qltb t c).
(** exact behaviour: drops the longest suffix of coefficients that are not > tol *)
Theorem C40_polytrim_partial : forall (P : list Qc) (tol : Qc), exists k, k <= length P /\
  (forall i, k <= i < length P -> (nth i P 0 <= tol)%Qc) /\
  ((1 <= k /\ (tol < nth (k - 1) P 0)%Qc /\ qpolytrim P tol = firstn k P) \/ (k = 0 /\ qpolytrim P tol = [0%Qc])).
Proof. exact polytrim_spec. Qed.
Print Assumptions C40_polytrim_partial.
(** so with non-negative coefficients tol = 0 leaves the function unchanged *)
Theorem C40_polytrim_nonnegative_partial : forall (P : list Qc), Forall (fun c => (0 <= c)%Qc) P -> forall x,
  polyval 0%Qc Qcplus Qcmult x (qpolytrim P 0%Qc) = polyval 0%Qc Qcplus Qcmult x P.
Proof. exact polytrim_nonneg. Qed.
Print Assumptions C40_polytrim_nonnegative_partial.
(** FINDING: a negative leading coefficient of any size is removed *)
Theorem C40_polytrim_negative_refuted : forall (P : list Qc) c tol, (0 <= tol)%Qc -> (c < 0)%Qc ->
  qpolytrim (P ++ [c]) tol = qpolytrim P tol.
Proof. exact polytrim_negative. Qed.
Print Assumptions C40_polytrim_negative_refuted.
Example C40_nonvacuous : qpolytrim [qz 1; qz 2; qz 0; qz 0] 0%Qc = [qz 1; qz 2] /\ qpolytrim [qz 1; qz (-2)] 0%Qc = [qz 1].
Proof. split; reflexivity. Qed.

(** C41 *)
Theorem C41_polyfromroots : forall (T : Type) (rO rI : T) radd rmul rsub ropp, ring_theory rO rI radd rmul rsub ropp eq ->
  forall roots : list T, exists P, polyfromroots rO rI rsub rmul ropp roots = Ok P /\
  length P = length roots + 1 /\ nth (length roots) P rO = rI /\
  forall x, polyval rO radd rmul x P = bigop rmul rI (map (fun r => rsub x r) roots).
Proof. intros T rO rI radd rmul rsub ropp Rth roots. exact (polyfromroots_spec Rth roots). Qed.
Print Assumptions C41_polyfromroots.
Theorem C41_zeros : forall roots : list Qc, exists P, polyfromroots 0%Qc 1%Qc Qcminus Qcmult Qcopp roots = Ok P /\
  forall x, polyval 0%Qc Qcplus Qcmult x P = 0%Qc <-> In x roots.
Proof. exact polyfromroots_zeros. Qed.
Print Assumptions C41_zeros.
Example C41_nonvacuous : polyfromroots 0%Z 1%Z Z.sub Z.mul Z.opp [1; 2; 3]%Z = Ok [-6; 11; -6; 1]%Z.
Proof. reflexivity. Qed.

(** C42.  Vandermonde: the list of the deg+1 columns. *)
Theorem C42_polyvander_partial : forall (T : Type) (rO rI : T) radd rmul rsub ropp rdiv rinv,
  field_theory rO rI radd rmul rsub ropp rdiv rinv eq -> forall (x : list T) (deg : nat), 1 <= deg ->
  polyvander rI rmul x (Z.of_nat deg) = Ok (map (fun j => map (fun t => rpow rI rmul t j) x) (seq 0 (S deg))).
Proof. intros T rO rI radd rmul rsub ropp rdiv rinv F x deg H. exact (polyvander_spec F x deg H). Qed.
Print Assumptions C42_polyvander_partial.
(** FINDING: deg = 0 writes the non-existing column 1; polycompanion of a constant writes column -1 *)
Theorem C42_degree_zero_refuted : forall (T : Type) (rO rI : T) rmul rdiv ropp (x : list T) c,
  polyvander rI rmul x 0 = UB /\ polycompanion rO rI rdiv ropp [c] = UB.
Proof. intros. split; reflexivity. Qed.
Print Assumptions C42_degree_zero_refuted.
(** companion matrix (list of rows): lam is a (left) eigenvalue iff it is a root *)
Theorem C42_companion_eigenvalues : forall (T : Type) (rO rI : T) radd rmul rsub ropp rdiv rinv,
  field_theory rO rI radd rmul rsub ropp rdiv rinv eq ->
  forall (P : list T) (lam : T), 2 <= length P -> nth (length P - 1) P rO <> rO -> let n := length P - 1 in
  exists M, polycompanion rO rI rdiv ropp P = Ok M /\ length M = n /\ (forall row, In row M -> length row = n) /\
  (polyval rO radd rmul lam P = rO <->
   exists w : nat -> T, (exists i, i < n /\ w i <> rO) /\
     forall j, j < n -> nsum rO radd (fun i => rmul (w i) (nth j (nth i M []) rO)) n = rmul lam (w j)).
Proof. exact companion_eigenvalues. Qed.
Print Assumptions C42_companion_eigenvalues.
Example C42_nonvacuous : polycompanion 0%Qc 1%Qc Qcdiv Qcopp [qz 6; qz (-5); qz 1] = Ok [[0%Qc; qz (-6)]; [1%Qc; qz 5]].
Proof. vm_compute. repeat f_equal; apply Qc_is_canon; reflexivity. Qed.
