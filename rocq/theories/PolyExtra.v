(** Remaining facts for PropPolynomial.v. *)
From Coq Require Import ZArith Ring Field Reals.
From Verif Require Import Base Functional FunctionalProofs Spec SumLib BaseQc EqualFacts Numeric Convolve ConvolveFacts Polynomial PolynomialFacts PolynomialField PolyReal.
From Coq Require Import Lqa.
Open Scope nat_scope.

Section Div.
Context {T : Type} {rO rI : T} {radd rmul rsub : T -> T -> T} {ropp : T -> T} {rdiv : T -> T -> T} {rinv : T -> T}.
Hypothesis Fth : field_theory rO rI radd rmul rsub ropp rdiv rinv eq.
Add Field TFE : Fth.
Let Rth : ring_theory rO rI radd rmul rsub ropp eq := F_R Fth.
Notation coef := (@coef T rO).
Lemma pad_coef u n k : coef (u ++ repeat rO n) k = coef u k.
Proof.
  rewrite coef_app, coef_repeat0. destruct (Nat.ltb_spec k (length u)); [reflexivity|]. symmetry. now apply coef_out.
Qed.
Lemma div_coefs q v r u n : zadd (rO := rO) (radd := radd) (cprod (rO := rO) (radd := radd) (rmul := rmul) q v) r = u ++ repeat rO n ->
  forall k, coef u k = radd (nsum rO radd (fun i => rmul (coef q i) (coef v (k - i))) (S k)) (coef r k).
Proof.
  intros E k. rewrite <- (pad_coef u n), <- E, (zadd_coef Rth), (cprod_coef Rth). reflexivity.
Qed.
Lemma map_div_1 (q : list T) : map (fun c => rdiv c rI) q = q.
Proof.
  rewrite <- (map_id q) at 2. apply map_ext. intros c.
  assert (H := F_1_neq_0 Fth). field. exact H.
Qed.
Lemma div_partial : forall u v : list T, u <> [] -> v <> [] -> coef v (length v - 1) <> rO ->
  coef v (length v - 1) = rI \/ length v = 1 \/ length u < length v ->
  exists q r, polydiv rO rI rsub rmul rdiv u v = Ok (q, r) /\
    ((forall k, coef u k = radd (nsum rO radd (fun i => rmul (coef q i) (coef v (k - i))) (S k)) (coef r k)) /\
     (length r < length v \/ r = [rO])) /\
    forall x, polyval rO radd rmul x u = radd (rmul (polyval rO radd rmul x q) (polyval rO radd rmul x v)) (polyval rO radd rmul x r).
Proof.
  intros u v Hu Hv Hnz Hc. destruct (polydiv_spec Fth u v _ Hu Hv eq_refl Hnz) as (q & r & E & _ & Z & _ & Lr).
  exists q, r. split; [exact E|].
  assert (Z' : zadd (rO := rO) (radd := radd) (cprod (rO := rO) (radd := radd) (rmul := rmul) q v) r =
     u ++ repeat rO (if length u <? length v then length v - length u else 0)).
  { destruct (Nat.leb_spec 2 (length v)), (Nat.leb_spec (length v) (length u)); cbn [andb] in Z; try exact Z.
    destruct Hc as [Hc|[Hc|Hc]]; [|lia|lia]. rewrite Hc, map_div_1 in Z. exact Z. }
  split; [split|].
  - exact (div_coefs _ _ _ _ _ Z').
  - assert (Lv : 1 <= length v) by (destruct v; simpl; [congruence|lia]).
    destruct (Nat.eqb_spec (length v) 1) as [E1|E1].
    + right. unfold polydiv, require in E. destruct (length u =? 0); [discriminate|]. destruct (length v =? 0); [discriminate|].
      cbn [negb] in E. rewrite E1 in E. cbn [Nat.eqb] in E. destruct (at_ub v 0); try discriminate. cbn [bind] in E. now injection E as _ <-.
    + left. rewrite Lr. destruct (Nat.ltb_spec (length u) (length v)); lia.
  - intros x. rewrite <- (polyval_pad Fth x u (if length u <? length v then length v - length u else 0)), <- Z', (eval_zadd Rth). rewrite (eval_cprod Rth); [reflexivity|now right].
Qed.
Lemma div_scaled : forall u v : list T, 2 <= length v -> length v <= length u -> coef v (length v - 1) <> rO ->
  exists q r, polydiv rO rI rsub rmul rdiv u v = Ok (q, r) /\
    ((forall k, coef u k = radd (nsum rO radd (fun i => rmul (coef (map (fun c => rdiv c (coef v (length v - 1))) q) i) (coef v (k - i))) (S k)) (coef r k)) /\
     (length r < length v \/ r = [rO])) /\ length q = length u - length v + 1.
Proof.
  intros u v H1 H2 Hnz. assert (Hu : u <> []) by (destruct u; simpl in *; [lia|discriminate]).
  assert (Hv : v <> []) by (destruct v; simpl in *; [lia|discriminate]).
  destruct (polydiv_spec Fth u v _ Hu Hv eq_refl Hnz) as (q & r & E & _ & Z & Lq & Lr). exists q, r. split; [exact E|].
  split; [|apply Lq; lia]. destruct (Nat.leb_spec 2 (length v)), (Nat.leb_spec (length v) (length u)); try lia. cbn [andb] in Z.
  split; [exact (div_coefs _ _ _ _ _ Z)|]. left. rewrite Lr. destruct (Nat.eqb_spec (length v) 1), (Nat.ltb_spec (length u) (length v)); lia.
Qed.
Lemma div_top (q v r : list T) N : length q + length v = S (S N) -> 1 <= length q -> 1 <= length v -> length r <= N ->
  radd (nsum rO radd (fun i => rmul (coef q i) (coef v (N - i))) (S N)) (coef r N) =
  rmul (coef q (length q - 1)) (coef v (length v - 1)).
Proof.
  intros L1 L2 L3 L4. rewrite (coef_out r) by exact L4. rewrite (sum_window Rth _ (length q - 1) 1 (S N)).
  - cbn [nsum]. rewrite Nat.add_0_r. replace (N - (length q - 1)) with (length v - 1) by lia. ring.
  - lia.
  - intros i Hi. rewrite (coef_out v) by lia. ring.
  - intros i Hi. rewrite (coef_out q) by lia. ring.
Qed.
Lemma div_nonmonic : forall u v : list T, 2 <= length v -> length v <= length u -> coef v (length v - 1) <> rO ->
  coef v (length v - 1) <> rI -> coef u (length u - 1) <> rO ->
  exists q r, polydiv rO rI rsub rmul rdiv u v = Ok (q, r) /\
  ~ ((forall k, coef u k = radd (nsum rO radd (fun i => rmul (coef q i) (coef v (k - i))) (S k)) (coef r k)) /\
     (length r < length v \/ r = [rO])).
Proof.
  intros u v H1 H2 Hnz Hm Hu. destruct (div_scaled u v H1 H2 Hnz) as (q & r & E & (C & Lr) & Lq). exists q, r. split; [exact E|].
  intros (C' & _).
  assert (Lr2 : length r <= length u - 1) by (destruct Lr as [?| ->]; cbn [length]; lia).
  specialize (C (length u - 1)). specialize (C' (length u - 1)).
  rewrite div_top in C, C'; rewrite ?map_length; try lia. rewrite map_length in C.
  assert (Hz : rdiv rO (coef v (length v - 1)) = rO) by (field; exact Hnz).
  rewrite coef_map in C by exact Hz.
  set (lc := coef v (length v - 1)) in *. set (t := coef q (length q - 1)) in *.
  assert (Et : coef u (length u - 1) = t) by (rewrite C; field; exact Hnz). rewrite Et in C', Hu.
  apply Hm. transitivity (rdiv (rmul t lc) t); [field; exact Hu|]. rewrite <- C'. field. exact Hu.
Qed.
End Div.

Lemma polydiv_partial : forall (T : Type) (rO rI : T) radd rmul rsub ropp rdiv rinv,
  field_theory rO rI radd rmul rsub ropp rdiv rinv eq ->
  forall u v : list T, u <> [] -> v <> [] -> nth (length v - 1) v rO <> rO ->
  nth (length v - 1) v rO = rI \/ length v = 1 \/ length u < length v ->
  exists q r, polydiv rO rI rsub rmul rdiv u v = Ok (q, r) /\
    ((forall k, nth k u rO = radd (nsum rO radd (fun i => rmul (nth i q rO) (nth (k - i) v rO)) (S k)) (nth k r rO)) /\
  (length r < length v \/ r = [rO])) /\
    forall x, polyval rO radd rmul x u = radd (rmul (polyval rO radd rmul x q) (polyval rO radd rmul x v)) (polyval rO radd rmul x r).
Proof. intros T rO rI radd rmul rsub ropp rdiv rinv F. exact (div_partial F). Qed.
Lemma polydiv_scaled : forall (T : Type) (rO rI : T) radd rmul rsub ropp rdiv rinv,
  field_theory rO rI radd rmul rsub ropp rdiv rinv eq ->
  forall u v : list T, 2 <= length v -> length v <= length u -> nth (length v - 1) v rO <> rO ->
  exists q r, polydiv rO rI rsub rmul rdiv u v = Ok (q, r) /\
    ((forall k, nth k u rO = radd (nsum rO radd (fun i => rmul (nth i (map (fun c => rdiv c (nth (length v - 1) v rO)) q) rO) (nth (k - i) v rO)) (S k)) (nth k r rO)) /\
     (length r < length v \/ r = [rO])) /\ length q = length u - length v + 1.
Proof. intros T rO rI radd rmul rsub ropp rdiv rinv F. exact (div_scaled F). Qed.
Lemma polydiv_nonmonic : forall (T : Type) (rO rI : T) radd rmul rsub ropp rdiv rinv,
  field_theory rO rI radd rmul rsub ropp rdiv rinv eq ->
  forall u v : list T, 2 <= length v -> length v <= length u -> nth (length v - 1) v rO <> rO ->
  nth (length v - 1) v rO <> rI -> nth (length u - 1) u rO <> rO ->
  exists q r, polydiv rO rI rsub rmul rdiv u v = Ok (q, r) /\
  ~ ((forall k, nth k u rO = radd (nsum rO radd (fun i => rmul (nth i q rO) (nth (k - i) v rO)) (S k)) (nth k r rO)) /\
     (length r < length v \/ r = [rO])).
Proof. intros T rO rI radd rmul rsub ropp rdiv rinv F. exact (div_nonmonic F). Qed.
Lemma companion_eigenvalues : forall (T : Type) (rO rI : T) radd rmul rsub ropp rdiv rinv,
  field_theory rO rI radd rmul rsub ropp rdiv rinv eq ->
  forall (P : list T) (lam : T), 2 <= length P -> nth (length P - 1) P rO <> rO -> let n := length P - 1 in
  exists M, polycompanion rO rI rdiv ropp P = Ok M /\ length M = n /\ (forall row, In row M -> length row = n) /\
  (polyval rO radd rmul lam P = rO <->
   exists w : nat -> T, (exists i, i < n /\ w i <> rO) /\
     forall j, j < n -> nsum rO radd (fun i => rmul (w i) (nth j (nth i M []) rO)) n = rmul lam (w j)).
Proof.
  intros T rO rI radd rmul rsub ropp rdiv rinv F P lam H Hnz n.
  destruct (polycompanion_spec (rO := rO) (rI := rI) (ropp := ropp) (rdiv := rdiv) P H) as (M & E & L1 & L2 & _).
  exists M. split; [exact E|]. split; [exact L1|]. split; [exact L2|]. exact (companion_eigen F P lam M H Hnz E).
Qed.

(** derivative *)
Lemma polyder_refuted :
  (exists Q, rpolyder [0; 1]%R 1 = Ok Q /\ ~ derivable_pt_lim (fun t => rpolyval t [0; 1]%R) 0 (rpolyval 0 Q)) /\
  forall c : R, c <> 0%R -> (do Q <- rpolyint [c] 1; rpolyder Q 1) = Ok [0%R] /\ [0%R] <> [c].
Proof.
  assert (D : forall a b, rpolyder [a; b] 1 = Ok [(a * 1)%R]) by reflexivity.
  split.
  - exists [(0 * 1)%R]. split; [apply D|]. intros H. pose proof (rpolyval_derivative [0; 1]%R 0) as H2.
    pose proof (uniqueness_limite _ _ _ _ H H2) as E.
    assert (E1 : rpolyval 0 [(0 * 1)%R] = 0%R) by (unfold rpolyval, polyval; simpl; ring).
    assert (E2 : rpolyval 0 (deriv (rO := 0%R) (rmul := Rmult) INR [0; 1]%R) = 1%R) by (unfold rpolyval, polyval, deriv, SumLib.coef; simpl; ring).
    rewrite E1, E2 in E. now apply R1_neq_R0.
  - intros c Hc. split.
    + change (rpolyint [c] 1) with (Ok [0; c / INR 1]%R). cbn [bind]. rewrite D. now rewrite Rmult_0_l.
    + congruence.
Qed.

(** trimming *)
Definition trimQ := polytrim 0%Qc (fun c t : Qc => qltb t c).
Lemma drop_spec {A} (p : A -> bool) r : exists l1, r = l1 ++ drop_while_rev p r /\ Forall (fun x => p x = false) l1 /\
  match drop_while_rev p r with [] => True | x :: _ => p x = true end.
Proof.
  induction r as [|x r (l1 & E & F & G)]; [exists []; simpl; auto|]. simpl. destruct (p x) eqn:Ep.
  - exists []. simpl. auto.
  - exists (x :: l1). split; [simpl; congruence|]. split; [constructor; auto|exact G].
Qed.
Lemma polytrim_spec : forall (P : list Qc) (tol : Qc), exists k, k <= length P /\
  (forall i, k <= i < length P -> (nth i P 0 <= tol)%Qc) /\
  ((1 <= k /\ (tol < nth (k - 1) P 0)%Qc /\ trimQ P tol = firstn k P) \/ (k = 0 /\ trimQ P tol = [0%Qc])).
Proof.
  intros P tol. unfold trimQ, polytrim. destruct (drop_spec (fun c => qltb tol c) (rev P)) as (l1 & E & F & G).
  set (d := drop_while_rev (fun c => qltb tol c) (rev P)) in *.
  assert (EP : P = rev d ++ rev l1) by (rewrite <- rev_app_distr, <- E, rev_involutive; reflexivity).
  exists (length d). assert (LP : length P = length d + length l1) by (rewrite EP, app_length, !rev_length; lia).
  split; [lia|]. split.
  - intros i Hi. rewrite EP, app_nth2; rewrite rev_length; [|lia].
    assert (In (nth (i - length d) (rev l1) 0%Qc) l1).
    { apply in_rev. apply nth_In. rewrite rev_length. lia. }
    rewrite Forall_forall in F. specialize (F _ H). cbn beta in F. destruct (qltb_spec tol (nth (i - length d) (rev l1) 0%Qc)); [discriminate|]. qc_lra.
  - destruct d as [|x d']; [right; split; reflexivity|]. left. cbn [length]. split; [lia|].
    assert (Hn : firstn (S (length d')) P = rev (x :: d')).
    { assert (Lx : length (rev (x :: d')) = S (length d')) by (now rewrite rev_length). rewrite EP, <- Lx. rewrite firstn_app, Nat.sub_diag, firstn_O, app_nil_r. apply firstn_all. }
    split.
    + rewrite EP, app_nth1 by (rewrite rev_length; cbn [length]; lia). replace (S (length d') - 1) with (length d') by lia.
      cbn [rev]. rewrite app_nth2; rewrite rev_length; [|lia]. rewrite Nat.sub_diag. cbn [nth].
      destruct (qltb_spec tol x); [assumption|discriminate].
    + rewrite Hn. cbn [rev]. destruct (rev d' ++ [x]) eqn:C; [|reflexivity]. destruct (rev d'); discriminate.
Qed.
Lemma polytrim_nonneg : forall (P : list Qc), Forall (fun c => (0 <= c)%Qc) P -> forall x,
  polyval 0%Qc Qcplus Qcmult x (trimQ P 0%Qc) = polyval 0%Qc Qcplus Qcmult x P.
Proof.
  intros P HP x. destruct (polytrim_spec P 0%Qc) as (k & Hk & Hz & Hc).
  apply (polyval_coef_eq (rI := 1%Qc) Qcrt). intros i. unfold coef.
  assert (Z : k <= i -> nth i P 0%Qc = 0%Qc).
  { intros Hi. destruct (Nat.lt_ge_cases i (length P)) as [L|L]; [|now apply nth_overflow].
    apply Qcle_antisym; [apply Hz; lia|]. rewrite Forall_forall in HP. apply HP, nth_In, L. }
  destruct Hc as [(_ & _ & E)|(-> & E)]; rewrite E.
  - destruct (Nat.lt_ge_cases i k) as [L|L].
    + rewrite <- (firstn_skipn k P) at 2. rewrite app_nth1; [reflexivity|]. rewrite firstn_length. lia.
    + rewrite Z by exact L. apply nth_overflow. rewrite firstn_length. lia.
  - rewrite Z by lia. destruct i as [|[|?]]; reflexivity.
Qed.
Lemma polytrim_negative : forall (P : list Qc) c tol, (0 <= tol)%Qc -> (c < 0)%Qc -> trimQ (P ++ [c]) tol = trimQ P tol.
Proof.
  intros P c tol H1 H2. unfold trimQ, polytrim. rewrite rev_app_distr. cbn [rev app drop_while_rev].
  destruct (qltb_spec tol c); [qc_lra|reflexivity].
Qed.
Lemma polyfromroots_zeros : forall roots : list Qc, exists P, polyfromroots 0%Qc 1%Qc Qcminus Qcmult Qcopp roots = Ok P /\
  forall x, polyval 0%Qc Qcplus Qcmult x P = 0%Qc <-> In x roots.
Proof.
  intros roots. destruct (polyfromroots_spec Qcrt roots) as (P & E & _ & _ & V). exists P. split; [exact E|]. intros x. rewrite V.
  clear. induction roots as [|r rs IH]; cbn [map bigop In].
  - split; [discriminate|tauto].
  - split.
    + intros H. apply Qcmult_integral in H. destruct H as [H|H]; [left; qc_lra|right; now apply IH].
    + intros [->|H]; [ring|]. apply IH in H. rewrite H. ring.
Qed.
