(** C110: the std::array overloads agree with the std::vector overloads. *)
From Coq Require Import ZArith List Lia Ring_theory PrimFloat.
From Verif Require Import Base Functional FunctionalProofs Numeric NumericFacts Convolve ConvolveFacts Polynomial PolynomialFacts FixedSize FixedSizeFacts.
Import ListNotations.
Open Scope nat_scope.

(** No law on the element type: every equality is of the computed values, so it holds for floats, quantities and complex numbers. *)
Theorem C110_polynomials : forall (T : Type) (zero one : T) (add sub mul div : T -> T -> T) (opp : T -> T) (ofnat : nat -> T) (P Q : list T),
  polyadd_fixed zero add P Q = polyadd zero add P Q /\
  polysub_fixed zero sub opp P Q = polysub zero sub opp P Q /\
  polymulx_fixed zero P = polymulx zero P /\
  (P <> [] \/ Q <> [] -> convolve_fixed zero add mul P Q = polymul zero add mul P Q) /\
  (P <> [] -> Q <> [] ->
     polydiv_fixed zero one sub mul div P Q = polydiv zero one sub mul div P Q /\
     exists q r, polydiv zero one sub mul div P Q = Ok (q, r) /\
       length q = (if length Q =? 1 then length P else if length P <? length Q then 1 else length P - length Q + 1) /\
       length r = (if length Q =? 1 then 1 else if length P <? length Q then length P else length Q - 1)) /\
  (P = [] \/ Q = [] -> polydiv_fixed zero one sub mul div P Q = RequireFail).
Proof.
  intros T zero one add sub mul div opp ofnat P Q. do 3 (split; [reflexivity|]).
  split; [exact (@convolve_fixed_spec T zero add mul P Q)|].
  split; [exact (@polydiv_fixed_spec T zero one sub mul div P Q)|].
  intros [-> | ->]; [reflexivity|]. unfold polydiv_fixed. now rewrite Bool.orb_true_r.
Qed.
Print Assumptions C110_polynomials.

(** polyder<m>(P), polyint<m>(P) and diff<n>(a); the array polyder multiplies T(N - 1 - i) * P[i] where the vector one does P[i] *= T(N - 1 - i). *)
Theorem C110_calculus : forall (T : Type) (zero : T) (sub mul div : T -> T -> T) (ofnat : nat -> T) (P : list T) (m : nat),
  ((forall x y, mul x y = mul y x) ->
     polyder_fixed zero mul ofnat m P = polyder mul ofnat P (Z.of_nat m) /\
     exists Q, polyder mul ofnat P (Z.of_nat m) = Ok Q /\ length Q = length P - m) /\
  (P <> [] ->
     polyint_fixed zero div ofnat m P = polyint zero div ofnat P (Z.of_nat m) /\
     exists Q, polyint zero div ofnat P (Z.of_nat m) = Ok Q /\ length Q = length P + m) /\
  (diff_fixed zero sub m P = diff sub P (Z.of_nat m) /\
     exists Q, diff sub P (Z.of_nat m) = Ok Q /\ length Q = length P - m).
Proof.
  intros. split; [intros C; exact (@polyder_fixed_spec T zero mul ofnat C m P)|]. split; [exact (@polyint_fixed_spec T zero div ofnat m P)|].
  rewrite diff_array_agrees. destruct (@diff_fixed_spec T zero sub m P) as [E L]. split; [exact E|]. eauto.
Qed.
Print Assumptions C110_calculus.

(** full<N>(x) / full(N, x), concatenate of two arrays / of any two iterables; [c1], [c2] convert to the common type *)
Theorem C110_containers : forall (A B C : Type) (zero x : C) (c1 : A -> C) (c2 : B -> C) (a1 : list A) (a2 : list B) (n : nat),
  concatenate_fixed zero c1 c2 a1 a2 = concatenate_dyn zero c1 c2 a1 a2 /\
  concatenate_dyn zero c1 c2 a1 a2 = Ok (map c1 a1 ++ map c2 a2) /\
  full_fixed zero n x = repeat x n.
Proof.
  intros. destruct (@concatenate_both A B C zero c1 c2 a1 a2) as [E1 E2]. split; [congruence|]. split; [exact E2|]. apply full_fixed_spec.
Qed.
Print Assumptions C110_containers.

Lemma pow_fixed_array (T : Type) (zero one : T) add mul f : forall n P, P <> [] ->
  (forall a b : list T, a <> [] -> b <> [] -> exists c, convolve zero add mul a b = Ok c /\ c <> []) ->
  polypow_fixed zero one add mul f n P = polypow_array zero one add mul f n P /\ exists c, polypow_array zero one add mul f n P = Ok c /\ c <> [].
Proof.
  induction f as [|f IH]; intros n P H HC; cbn [polypow_fixed polypow_array]; [split; [reflexivity|exists [one]; split; [reflexivity|discriminate]]|].
  destruct (n =? 0); [split; [reflexivity|exists [one]; split; [reflexivity|discriminate]]|]. destruct (n =? 1); [split; [reflexivity|eauto]|].
  rewrite convolve_fixed_spec by auto. unfold polymul. destruct (HC P P H H) as (PP & E & N). rewrite E. cbn [bind].
  destruct (n mod 2 =? 0); [apply IH; auto|]. destruct (IH ((n - 1) / 2) PP N HC) as (E1 & c & E2 & N2). rewrite E1, E2. cbn [bind].
  rewrite convolve_fixed_spec by auto. split; [reflexivity|]. apply HC; auto.
Qed.
(** polypow<n>(array) and polypow(vector, n) multiply in different orders: equal in every commutative ring ... *)
Theorem C110_polypow_partial : forall (T : Type) (rO rI : T) radd rmul rsub ropp, ring_theory rO rI radd rmul rsub ropp eq ->
  forall (P : list T) (n : nat), P <> [] ->
  polypow_fixed rO rI radd rmul n n P = polypow rO rI radd rmul P n /\
  exists Q, polypow rO rI radd rmul P n = Ok Q /\ length Q = n * (length P - 1) + 1.
Proof.
  intros T rO rI radd rmul rsub ropp Rth P n H.
  assert (HC : forall a b : list T, a <> [] -> b <> [] -> exists c, convolve rO radd rmul a b = Ok c /\ c <> []).
  { intros a b Ha Hb. eexists. split; [exact (convolve_spec Rth a b (or_introl Ha))|]. intros C. apply (f_equal (@length T)) in C. rewrite cprod_length in C.
    destruct a, b; simpl in *; try congruence; lia. }
  rewrite (proj1 (@pow_fixed_array T rO rI radd rmul n n P H HC)), (polypow_array_spec Rth n n P (le_n n) H), (polypow_spec Rth P n H).
  split; [reflexivity|]. eexists. split; [reflexivity|]. now apply ppow_length.
Qed.
Print Assumptions C110_polypow_partial.
(** ... but not in binary64: the constant polynomial 457 to the seventh power. An empty vector throws where the array does not compile. *)
Theorem C110_polypow_refuted :
  (exists (P : list float) (n : nat) (A V : list float),
     polypow_fixed 0%float 1%float PrimFloat.add PrimFloat.mul n n P = Ok A /\ polypow 0%float 1%float PrimFloat.add PrimFloat.mul P n = Ok V /\
     length A = 1 /\ length V = 1 /\ PrimFloat.eqb (nth 0 A 0%float) (nth 0 V 0%float) = false) /\
  (forall (T : Type) (zero one : T) (padd pmul : T -> T -> T) (n : nat), 2 <= n ->
     polypow_fixed zero one padd pmul n n [] = RequireFail /\ polypow zero one padd pmul [] n = Throw).
Proof.
  split.
  - exists [457%float], 7.
    assert (F : match polypow_fixed 0%float 1%float PrimFloat.add PrimFloat.mul 7 7 [457%float], polypow 0%float 1%float PrimFloat.add PrimFloat.mul [457%float] 7 with
                | Ok A, Ok V => (length A =? 1) && (length V =? 1) && negb (PrimFloat.eqb (nth 0 A 0%float) (nth 0 V 0%float)) | _, _ => false end = true) by (vm_compute; reflexivity).
    destruct (polypow_fixed 0%float 1%float PrimFloat.add PrimFloat.mul 7 7 [457%float]) as [A| | |]; try discriminate F.
    destruct (polypow 0%float 1%float PrimFloat.add PrimFloat.mul [457%float] 7) as [V| | |]; try discriminate F. exists A, V.
    apply Bool.andb_true_iff in F as [F F3]. apply Bool.andb_true_iff in F as [F1 F2]. apply Nat.eqb_eq in F1, F2. apply Bool.negb_true_iff in F3. auto.
  - intros T zero one padd pmul n H. destruct n as [|[|n]]; try lia. split; reflexivity.
Qed.
Print Assumptions C110_polypow_refuted.

Example C110_nonvacuous :
  polydiv_fixed 0%Z 1%Z Z.sub Z.mul Z.div [1; 3; 3; 1]%Z [1; 1]%Z = Ok ([1; 2; 1], [0])%Z /\
  polyder_fixed 0%Z Z.mul Z.of_nat 2 [5; 4; 3; 2]%Z = Ok [30; 8]%Z /\
  polyint_fixed 0%Z Z.div Z.of_nat 2 [6; 6]%Z = Ok [0; 0; 3; 1]%Z /\
  diff_fixed 0%Z Z.sub 2 [1; 4; 9; 16]%Z = Ok [2; 2]%Z /\
  concatenate_fixed 0%Z (fun b : bool => if b then 1 else 0)%Z Z.of_nat [true; false] [5; 6] = Ok [1; 0; 5; 6]%Z.
Proof. repeat split; reflexivity. Qed.
