(** C111: quantity variables: compound assignments, increments, almost_equal. *)
From Verif Require Import Base Arith ArithFacts ArithFacts2 ArithNewton ArithValue Quantity QuantityMaths QuantityFacts QuantityInt
  UnitsSpec DimFacts2 DimFacts3 UnitsTable PropUnits QuantityState.
From Coq Require Import ZArith QArith Lia List Bool Reals Psatz.
From Coq Require Import Lra.
Import ListNotations.
Open Scope nat_scope.

(** What a statement does to a physical value p (in base units) held by a variable whose unit is [u]: += and -= add and subtract the
    physical value of the operand, *= and /= scale, ++ and -- move by one unit. *)
Definition effect (u : uty) (s : stmt R) (p : R) : R :=
  match s with
  | AddAssign b y => (p + physical b y)%R
  | SubAssign b y => (p - physical b y)%R
  | MulAssign k => (p * k)%R
  | DivAssign k => (p / k)%R
  | PreInc | PostInc => (p + scale u)%R
  | PreDec | PostDec => (p - scale u)%R
  end.
(** the value of the statement as an expression: the new value, except for the postfix forms, which give the old one *)
Definition result (u : uty) (s : stmt R) (p : R) : R :=
  match s with PostInc | PostDec => p | _ => effect u s p end.
Fixpoint effects (u : uty) (p : R) (h : list (stmt R)) : R :=
  match h with [] => p | s :: r => effects u (effect u s p) r end.
Fixpoint results (u : uty) (p : R) (h : list (stmt R)) : list R :=
  match h with [] => [] | s :: r => result u s p :: results u (effect u s p) r end.
(** every operand unit is well formed and has no offset, every divisor is non-zero *)
Definition good (s : stmt R) : Prop :=
  match s with AddAssign b _ | SubAssign b _ => unit_ok b /\ offset b = 0%R | DivAssign k => k <> 0%R | _ => True end.

Definition run_R (fuel : nat) : uty -> R -> list (stmt R) -> option (R * list R) := run 1%R Rplus Rminus Rmult Rdiv IZR exact_eval fuel true.

Lemma step_R fuel a x s z v : unit_ok a -> offset a = 0%R -> good s ->
  step 1%R Rplus Rminus Rmult Rdiv IZR exact_eval fuel true a x s = Some (z, v) ->
  physical a z = effect a s (physical a x) /\ physical a v = result a s (physical a x).
Proof.
  intros Wa Oa G H.
  assert (P : forall t, physical a t = (scale a * t)%R). { intros t. unfold physical. fold (scale a). fold (offset a). rewrite Oa. ring. }
  destruct s as [b y|b y|k|k| | | |]; cbn [step] in H; cbn [good] in G; cbn [effect result].
  - destruct G as [Wb Ob]. destruct (q_iadd _ _ _ _ _ _ _ _ _ _ _) as [w|] eqn:E; [|discriminate]. injection H as <- <-.
    pose proof (proj1 (C68_compound_partial fuel a b x y w Wa Wb Oa Ob) E). auto.
  - destruct G as [Wb Ob]. destruct (q_isub _ _ _ _ _ _ _ _ _ _ _ _) as [w|] eqn:E; [|discriminate]. injection H as <- <-.
    pose proof (proj2 (C68_compound_partial fuel a b x y w Wa Wb Oa Ob) E). auto.
  - injection H as <- <-. rewrite !P. split; ring.
  - injection H as <- <-. rewrite !P. split; field; exact G.
  - injection H as <- <-. rewrite !P. split; ring.
  - injection H as <- <-. rewrite !P. split; ring.
  - injection H as <- <-. rewrite !P. split; ring.
  - injection H as <- <-. rewrite !P. split; ring.
Qed.

(** Every history of statements on a variable of a unit without offset: the physical value follows the history, and so do the values
    of the expressions. Missing: units with an offset, see C111_offset_refuted. *)
Theorem C111_history_partial : forall fuel a (h : list (stmt R)) x z vs, unit_ok a -> offset a = 0%R -> Forall good h ->
  run_R fuel a x h = Some (z, vs) ->
  physical a z = effects a (physical a x) h /\ map (physical a) vs = results a (physical a x) h.
Proof.
  intros fuel a h. induction h as [|s r IH]; intros x z vs Wa Oa G H; unfold run_R in *; cbn [run] in H.
  - injection H as <- <-. split; reflexivity.
  - inversion G as [|? ? G1 G2]; subst. destruct (step _ _ _ _ _ _ _ _ _ _ x s) as [[x' v]|] eqn:E; [|discriminate].
    destruct (step_R fuel a x s x' v Wa Oa G1 E) as [E1 E2].
    destruct (run _ _ _ _ _ _ _ _ _ _ x' r) as [[y vs']|] eqn:F; [|discriminate]. injection H as <- <-.
    destruct (IH x' y vs' Wa Oa G2 F) as [F1 F2]. cbn [effects results map]. rewrite <- E1, <- E2, F1, F2. split; reflexivity.
Qed.
Print Assumptions C111_history_partial.

Lemma compiles : forall fuel a (h : list (stmt R)) x,
  (exists r, run_R fuel a x h = Some r) <->
  Forall (fun s => match s with AddAssign b y | SubAssign b y => exists w, cast_R fuel b a y = Some w | _ => True end) h.
Proof.
  intros fuel a h. induction h as [|s r IH]; intros x; unfold run_R in *; cbn [run].
  - split; [constructor|eauto].
  - assert (K : (exists p, step 1%R Rplus Rminus Rmult Rdiv IZR exact_eval fuel true a x s = Some p) <->
                match s with AddAssign b y | SubAssign b y => exists w, cast_R fuel b a y = Some w | _ => True end).
    { destruct s as [b y|b y|k|k| | | |]; cbn [step]; [| |split; [auto|eauto]..];
        unfold q_iadd, q_isub, convert, cast_R; cbn [is_implicitly_convertible orb];
        (destruct (quantity_cast _ _ _ _ _ _ _ _ b a y); split; [eauto|eauto|intros [p E]; discriminate|intros [w E]; discriminate]). }
    rewrite Forall_cons_iff, <- K. split.
    + intros [q E]. destruct (step _ _ _ _ _ _ _ _ _ _ x s) as [[x' v]|] eqn:F; [|discriminate]. split; [eauto|].
      apply (proj1 (IH x')). destruct (run _ _ _ _ _ _ _ _ _ _ x' r) as [p|]; [eauto|discriminate].
    + intros [[[x' v] E] G]. rewrite E. apply (proj2 (IH x')) in G as [[y vs] F]. rewrite F. eauto.
Qed.
(** With rational scales a history compiles exactly when every operand of += and -= has the dimension of the variable. *)
Theorem C111_compiles : forall fuel a (h : list (stmt R)) x, rational_scale a ->
  Forall (fun s => match s with AddAssign b _ | SubAssign b _ => rational_scale b | _ => True end) h ->
  ((exists r, run_R fuel a x h = Some r) <->
   Forall (fun s => match s with AddAssign b _ | SubAssign b _ => u_dim b = u_dim a | _ => True end) h).
Proof.
  intros fuel a h x Ra Rh. rewrite compiles. rewrite Forall_forall in Rh. split; intros H; rewrite Forall_forall in *; intros s Hs;
    specialize (H s Hs); specialize (Rh s Hs); destruct s as [b y|b y| | | | | |]; auto.
  - destruct H as [w E]. destruct (Bool.bool_dec (rr_eqb (u_dim b) (u_dim a)) true) as [D|D]; [now apply rr_eqb_eq|].
    rewrite (proj1 (C67_compiles fuel b a y)) in E; [discriminate|]. intros C. apply D. now apply rr_eqb_eq.
  - destruct H as [w E]. destruct (Bool.bool_dec (rr_eqb (u_dim b) (u_dim a)) true) as [D|D]; [now apply rr_eqb_eq|].
    rewrite (proj1 (C67_compiles fuel b a y)) in E; [discriminate|]. intros C. apply D. now apply rr_eqb_eq.
  - apply (proj2 (C67_compiles fuel b a y)); auto.
  - apply (proj2 (C67_compiles fuel b a y)); auto.
Qed.
Print Assumptions C111_compiles.

(** Integer representations: *= and ++ are exact, /= truncates. *)
Theorem C111_integer_division : forall fuel a (x k : Z), k <> 0%Z ->
  exists z, step 1%Z Z.add Z.sub Z.mul Z.quot (fun w => w) (eval_Z fuel) fuel false a x (DivAssign k) = Some (z, z) /\
    (Z.abs (z * k) <= Z.abs x)%Z /\ (Z.abs (x - z * k) < Z.abs k)%Z.
Proof.
  intros fuel a x k Hk. exists (Z.quot x k). split; [reflexivity|]. pose proof (Z.quot_rem' x k) as E.
  pose proof (Z.rem_bound_abs x k Hk) as B. pose proof (Z.rem_sign_mul x k Hk) as S.
  assert (E2 : (x - x ÷ k * k = Z.rem x k)%Z) by lia. rewrite E2. split; [|exact B].
  assert (E3 : (x ÷ k * k = x - Z.rem x k)%Z) by lia. rewrite E3.
  destruct (Z.eq_dec x 0) as [-> |]; [rewrite Z.rem_0_l by auto; lia|].
  pose proof (Z.quot_abs x k Hk) as Q. pose proof (Z.rem_abs x k Hk) as RA.
  assert (0 <= Z.rem (Z.abs x) (Z.abs k) <= Z.abs x)%Z.
  { split; [apply Z.rem_nonneg; lia|]. apply Z.rem_le; lia. }
  destruct (Z.le_gt_cases 0 x); [assert (0 <= Z.rem x k)%Z by (apply Z.rem_nonneg; auto)|assert (Z.rem x k <= 0)%Z by (apply Z.rem_nonpos; lia)]; lia.
Qed.
Print Assumptions C111_integer_division.

(** With an offset *= scales the number, not the physical value: 10 C *= 2 is 20 C (293.15 K), not 566.3 K. *)
Theorem C111_offset_refuted : forall fuel x k z vs, run_R fuel celsius x [MulAssign k] = Some (z, vs) ->
  physical celsius z = (physical celsius x * k - (5463 / 20) * (k - 1))%R.
Proof.
  intros fuel x k z vs H. unfold run_R in H. cbn [run step] in H. injection H as <- _.
  assert (W : unit_ok celsius) by uok. unfold physical. fold (scale celsius). rewrite (@scale_one celsius eq_refl eq_refl W).
  cbn [u_off celsius r_num r_den]. field.
Qed.
Print Assumptions C111_offset_refuted.

(** almost_equal on two quantities: same dimension required; the decision is about the physical values, whatever the units. *)
Theorem C111_almost_equal : forall tol a b x y, (0 < tol <= 1)%R ->
  (q_almost_equal exact_eval tol a b x y = None <-> u_dim a <> u_dim b) /\
  (u_dim a = u_dim b ->
   let p := physical a x in let q := physical b y in
   (q_almost_equal exact_eval tol a b x y = Some true <->
      (if Rzero p || Rzero q then (Rabs (p - q) <= tol)%R
       else (Rabs (p - q) <= tol * Rmax (Rabs p) (Rabs q))%R \/ (Rmax (Rabs p) (Rabs q) < tol /\ Rabs (p - q) <= tol)%R)) /\
   (p = q -> q_almost_equal exact_eval tol a b x y = Some true) /\
   q_almost_equal exact_eval tol a b x y = q_almost_equal exact_eval tol b a y x).
Proof.
  intros tol a b x y Ht.
  assert (D : forall u v : rr, rr_eqb u v = true <-> u = v).
  { intros [n1 d1 r1] [n2 d2 r2]. unfold rr_eqb. cbn [rr_num rr_den rr_root]. rewrite !andb_true_iff, !Z.eqb_eq. split; [intros [[-> ->] ->]; reflexivity|].
    intros E. injection E as -> -> ->. auto. }
  unfold q_almost_equal. change (q_eval Rplus Rmult Rdiv IZR exact_eval a x) with (Some (physical a x)).
  change (q_eval Rplus Rmult Rdiv IZR exact_eval b y) with (Some (physical b y)). split.
  - destruct (rr_eqb (u_dim a) (u_dim b)) eqn:E; [apply D in E; split; [discriminate|contradiction]|].
    split; [|reflexivity]. intros _ C. apply D in C. congruence.
  - intros E. rewrite (proj2 (D _ _) E), (proj2 (D _ _) (eq_sym E)). cbn zeta. generalize (physical a x) (physical b y). intros p q. split; [|split].
    + unfold fp_equal_R. destruct (Rzero p || Rzero q) eqn:Z0; cbn [orb].
      * unfold Rleb. destruct (Rle_dec _ _); split; intros H; try discriminate H; auto; contradiction.
      * unfold Rltb, Rleb. destruct (Rlt_dec _ tol).
        -- destruct (Rle_dec (Rabs (p - q)) tol) as [L|L]; split; intros H; try discriminate H; auto.
           destruct H as [H|[_ H]]; [|contradiction]. exfalso. apply L.
           apply Rle_trans with (1 := H). nra.
        -- destruct (Rle_dec _ _); split; intros H; try discriminate H; auto. destruct H as [H|[H _]]; contradiction.
    + intros ->. unfold fp_equal_R. rewrite (Rminus_diag_eq _ _ eq_refl), Rabs_R0. unfold Rleb.
      destruct (Rzero q || Rzero q || Rltb _ tol); destruct (Rle_dec _ _) as [|C]; auto; exfalso; apply C; [lra|].
      apply Rmult_le_pos; [lra|]. apply Rle_trans with (1 := Rabs_pos q). apply Rmax_l.
    + unfold fp_equal_R. rewrite (Rabs_minus_sym p q), (Rmax_comm (Rabs p)), (orb_comm (Rzero p)). reflexivity.
Qed.
Print Assumptions C111_almost_equal.

(** The tolerance is absolute below rel_tol * eps / 2 base units: quantities that are small in SI units are all almost equal. One and two
    elementary charges (1.602176634e-19 C), for the default rel_tol = 1 in double: *)
Theorem C111_almost_equal_refuted :
  (forall tol a b x y, (0 < tol <= 1)%R -> u_dim a = u_dim b ->
     (Rabs (physical a x) < tol / 2 -> Rabs (physical b y) < tol / 2 -> q_almost_equal exact_eval tol a b x y = Some true)%R) /\
  (forall coulomb, electric_charge one_rr = Some coulomb ->
     q_almost_equal exact_eval (/ 2 ^ 53)%R coulomb coulomb (1602176634 / 10 ^ 28)%R (2 * (1602176634 / 10 ^ 28))%R = Some true).
Proof.
  assert (G : forall tol a b x y, (0 < tol <= 1)%R -> u_dim a = u_dim b ->
     (Rabs (physical a x) < tol / 2 -> Rabs (physical b y) < tol / 2 -> q_almost_equal exact_eval tol a b x y = Some true)%R).
  { intros tol a b x y Ht D H1 H2. destruct (proj2 (C111_almost_equal tol a b x y Ht) D) as [K _]. apply K.
    assert (L : (Rabs (physical a x - physical b y) <= tol)%R).
    { unfold Rminus. eapply Rle_trans; [apply Rabs_triang|]. rewrite Rabs_Ropp. lra. }
    destruct (Rzero (physical a x) || Rzero (physical b y)); [exact L|]. right. split; [|exact L]. apply Rmax_lub_lt; lra. }
  split; [exact G|]. intros c Hc. assert (E : c = U (u_dim c) (RR 1 1 1) (Ratio 0 1)). { vm_compute in Hc. injection Hc as <-. reflexivity. }
  assert (P : forall t, physical c t = t).
  { intros t. rewrite E. unfold physical. cbn [u_scale u_off rr_num rr_den rr_root r_num r_den]. replace (1 / 1)%R with 1%R by field. rewrite Rinv_1, Rpower_1 by lra. field. }
  assert (B : (0 < 10 ^ 28)%R) by (apply pow_lt; lra). assert (B2 : (0 < 2 ^ 53)%R) by (apply pow_lt; lra).
  apply G; [|reflexivity|rewrite P|rewrite P].
  - split; [now apply Rinv_0_lt_compat|]. rewrite <- Rinv_1. apply Rinv_le_contravar; [lra|]. apply pow_R1_Rle. lra.
  - rewrite Rabs_pos_eq by lra. lra.
  - rewrite Rabs_pos_eq by lra. lra.
Qed.
Print Assumptions C111_almost_equal_refuted.

Example C111_nonvacuous : unit_ok metre /\ offset metre = 0%R /\ Forall good [AddAssign kilometre 2%R; PostInc; DivAssign 2%R] /\
  effects metre 5%R [PostInc; DivAssign 2%R; MulAssign 3%R] = ((5 + scale metre) / 2 * 3)%R /\
  results metre 5%R [PostInc; PreInc] = [5; 5 + scale metre + scale metre]%R /\
  (exists r, run_R 10 metre 1%R [AddAssign kilometre 2%R; PostInc; DivAssign 2%R] = Some r).
Proof.
  split; [uok|]. split; [unfold offset; cbn [u_off metre r_num r_den]; field|]. split.
  - apply Forall_cons; [cbn [good]; split; [uok|unfold offset; cbn [u_off kilometre r_num r_den]; field]|]. apply Forall_cons; [exact I|].
    apply Forall_cons; [cbn [good]; lra|constructor].
  - split; [reflexivity|]. split; [reflexivity|]. apply compiles. apply Forall_cons; [|repeat constructor]. apply (proj2 (C67_compiles 10 kilometre metre 2)); reflexivity.
Qed.
