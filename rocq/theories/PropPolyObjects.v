(** Property C123: objects of class Polynomial (polynomial.hpp:559-699). *)
From Coq Require Import List Arith ZArith Ring.
From Verif Require Import Base Functional FunctionalProofs Spec SumLib Numeric Convolve ConvolveFacts Polynomial PolynomialFacts PolyObjects PolyObjectsFacts.
From Coq Require Import Lia.
Import ListNotations.
Open Scope nat_scope.

(** Specification: what a program means.  A mathematical polynomial is a degree bound (what degree() announces) and the coefficients of all powers. *)
Section Meaning.
Context {T : Type}.
Variables (rO : T) (radd rmul rsub : T -> T -> T).
Definition mpoly : Type := (nat * (nat -> T))%type.
Definition m_add (p q : mpoly) : mpoly := (Nat.max (fst p) (fst q), fun k => radd (snd p k) (snd q k)).
Definition m_sub (p q : mpoly) : mpoly := (Nat.max (fst p) (fst q), fun k => rsub (snd p k) (snd q k)).
Definition m_mul (p q : mpoly) : mpoly := (fst p + fst q, fun k => nsum rO radd (fun i => rmul (snd p i) (snd q (k - i))) (S k)).
Definition m_scale (p : mpoly) (s : T) : mpoly := (fst p, fun k => rmul (snd p k) s).
Definition m_shift (p : mpoly) : mpoly := (S (fst p), fun k => match k with O => rO | S j => snd p j end).
Definition m_set (m : nat -> mpoly) (x : nat) (p : mpoly) : nat -> mpoly := fun v => if v =? x then p else m v.
(** every statement changes its target only, and computes with the values its operands have before the statement *)
Definition meaning1 (m : nat -> mpoly) (s : stmt) : nat -> mpoly :=
  match s with
  | NewDegree x d => m_set m x (d, fun _ => rO)
  | NewCoefs x l => m_set m x (length l - 1, fun k => nth k l rO)
  | Copy x y => m_set m x (m y)
  | AddAssign x y => m_set m x (m_add (m x) (m y))
  | SubAssign x y => m_set m x (m_sub (m x) (m y))
  | MulAssign x y => m_set m x (m_mul (m x) (m y))
  | ScaleAssign x s => m_set m x (m_scale (m x) s)
  | Mulx x => m_set m x (m_shift (m x))
  | Plus z x y => m_set m z (m_add (m x) (m y))
  | Minus z x y => m_set m z (m_sub (m x) (m y))
  | Times z x y => m_set m z (m_mul (m x) (m y))
  | Scale z x s => m_set m z (m_scale (m x) s)
  end.
Definition meaning (p : list stmt) (m : nat -> mpoly) : nat -> mpoly := fold_left meaning1 p m.
(** the functions the objects stand for *)
Definition f_set (m : nat -> T -> T) (x : nat) (f : T -> T) : nat -> T -> T := fun v => if v =? x then f else m v.
Definition fun_meaning1 (value : list T -> T -> T) (m : nat -> T -> T) (s : stmt) : nat -> T -> T :=
  match s with
  | NewDegree x d => f_set m x (fun _ => rO)
  | NewCoefs x l => f_set m x (value l)
  | Copy x y => f_set m x (m y)
  | AddAssign x y => f_set m x (fun t => radd (m x t) (m y t))
  | SubAssign x y => f_set m x (fun t => rsub (m x t) (m y t))
  | MulAssign x y => f_set m x (fun t => rmul (m x t) (m y t))
  | ScaleAssign x s => f_set m x (fun t => rmul (m x t) s)
  | Mulx x => f_set m x (fun t => rmul (m x t) t)
  | Plus z x y => f_set m z (fun t => radd (m x t) (m y t))
  | Minus z x y => f_set m z (fun t => rsub (m x t) (m y t))
  | Times z x y => f_set m z (fun t => rmul (m x t) (m y t))
  | Scale z x s => f_set m z (fun t => rmul (m x t) s)
  end.
Definition fun_meaning (value : list T -> T -> T) (p : list stmt) (m : nat -> T -> T) : nat -> T -> T := fold_left (fun_meaning1 value) p m.
(** no object is made from an empty coefficient list *)
Definition no_empty (s : @stmt T) : Prop := match s with NewCoefs _ l => l <> [] | _ => True end.
End Meaning.

Section Proofs.
Context {T : Type} {rO rI : T} {radd rmul rsub : T -> T -> T} {ropp : T -> T}.
Hypothesis Rth : ring_theory rO rI radd rmul rsub ropp eq.
Notation zadd := (zadd (rO := rO) (radd := radd)).
Notation zsub := (zsub (rO := rO) (rsub := rsub)).
Notation cprod := (cprod (rO := rO) (radd := radd) (rmul := rmul)).
Notation exec := (exec rO radd rsub rmul ropp).
Notation polyval := (polyval rO radd rmul).
(** the new content of the target of a statement *)
Definition target (s : @stmt T) : nat :=
  match s with NewDegree x _ | NewCoefs x _ | Copy x _ | AddAssign x _ | SubAssign x _ | MulAssign x _ | ScaleAssign x _ | Mulx x
             | Plus x _ _ | Minus x _ _ | Times x _ _ | Scale x _ _ => x end.
Definition content (s : stmt) (st : store) : list T :=
  match s with
  | NewDegree _ d => repeat rO (d + 1)
  | NewCoefs _ l => l
  | Copy _ y => st y
  | AddAssign x y | Plus _ x y => zadd (st x) (st y)
  | SubAssign x y | Minus _ x y => zsub (st x) (st y)
  | MulAssign x y | Times _ x y => cprod (st x) (st y)
  | ScaleAssign x c | Scale _ x c => map (fun a => rmul a c) (st x)
  | Mulx x => rO :: st x
  end.
Lemma content_ne s st : no_empty s -> (forall v, st v <> []) -> content s st <> [].
Proof.
  intros W N E. apply (f_equal (@length T)) in E.
  assert (P : forall v, 1 <= length (st v)) by (intros v; specialize (N v); destruct (st v); [congruence|simpl; lia]).
  destruct s; cbn [content no_empty] in *; rewrite ?repeat_length, ?zadd_length, ?zsub_length, ?cprod_length, ?map_length in E; cbn [length] in E;
    try (pose proof (P x)); try (pose proof (P y)); try lia.
  destruct l; [congruence|discriminate].
Qed.
Lemma exec_spec s st : no_empty s -> (forall v, st v <> []) ->
  exists st', exec s st = Ok st' /\ (forall v, v <> target s -> st' v = st v) /\ st' (target s) = content s st.
Proof.
  intros W N. destruct s; cbn [PolyObjects.exec target content].
  all: try (eexists; split; [reflexivity|]; split; [intros v Hv; apply put_other, Hv|rewrite put_same]; try reflexivity).
  - exact (plus_assign_spec Rth st x y (N x) (N y)).
  - exact (minus_assign_spec Rth st x y (N x) (N y)).
  - rewrite (polymul_spec Rth) by (left; apply N). cbn [bind]. eexists. split; [reflexivity|]. split; [intros v Hv; apply put_other, Hv|apply put_same].
  - unfold poly_scale_assign. now rewrite transform1_map.
  - apply polymulx_rvalue_spec.
  - rewrite (poly_plus_assign_spec Rth) by apply N. cbn [bind]. eexists. split; [reflexivity|]. split; [intros v Hv; apply put_other, Hv|apply put_same].
  - rewrite (poly_minus_assign_spec Rth) by apply N. cbn [bind]. eexists. split; [reflexivity|]. split; [intros v Hv; apply put_other, Hv|apply put_same].
  - rewrite (polymul_spec Rth) by (left; apply N). cbn [bind]. eexists. split; [reflexivity|]. split; [intros v Hv; apply put_other, Hv|apply put_same].
  - unfold poly_scale_assign. now rewrite transform1_map.
Qed.
Definition models (st : store) (m : nat -> mpoly) : Prop :=
  forall v, st v <> [] /\ degree (st v) = fst (m v) /\ forall k, nth k (st v) rO = snd (m v) k.
Add Ring R_ : Rth.
Lemma mul_0_l a : rmul rO a = rO.
Proof. ring. Qed.
Lemma nth_scale c (l : list T) k : nth k (map (fun a => rmul a c) l) rO = rmul (nth k l rO) c.
Proof.
  rewrite <- (map_nth (fun a => rmul a c)). destruct (Nat.lt_ge_cases k (length l)).
  - apply nth_indep. now rewrite map_length.
  - rewrite !nth_overflow by (rewrite ?map_length; assumption). ring.
Qed.
Lemma nth_zeros n k : nth k (repeat rO n) rO = rO.
Proof. revert k. induction n as [|n IH]; intros [|k]; simpl; auto. Qed.
Lemma sum_nth_ext f g n : (forall i, f i = g i) -> nsum rO radd f n = nsum rO radd g n.
Proof. intros H. apply sum_ext. intros i _. apply H. Qed.
Lemma exec_models s st m : no_empty s -> models st m -> exists st', exec s st = Ok st' /\ models st' (meaning1 rO radd rmul rsub m s).
Proof.
  intros W M. assert (N : forall v, st v <> []) by (intros v; apply M). destruct (exec_spec s st W N) as [st' [E [O C]]]. exists st'. split; [exact E|].
  assert (Q : forall v, v <> target s -> meaning1 rO radd rmul rsub m s v = m v).
  { intros v Hv. destruct s; cbn [meaning1 target] in *; unfold m_set; destruct (Nat.eqb_spec v x); try congruence; destruct (Nat.eqb_spec v z); congruence. }
  intros v. destruct (Nat.eq_dec v (target s)) as [->|Hv]; [|rewrite O, Q by exact Hv; apply M].
  rewrite C. split; [apply content_ne; assumption|]. unfold degree.
  assert (P : forall v, 1 <= length (st v)) by (intros v; specialize (N v); destruct (st v); [congruence|simpl; lia]).
  assert (D : forall v, length (st v) - 1 = fst (m v)) by (intros v; apply M).
  assert (K : forall v k, nth k (st v) rO = snd (m v) k) by (intros v; apply M).
  destruct s; cbn [meaning1 target content] in *; unfold m_set; rewrite Nat.eqb_refl; cbn [fst snd m_add m_sub m_mul m_scale m_shift].
  - rewrite repeat_length. split; [lia|]. intros k. apply nth_zeros.
  - split; reflexivity.
  - split; [apply D|]. apply K.
  - rewrite zadd_length. rewrite <- !D. pose proof (P x). pose proof (P y). split; [lia|]. intros k. rewrite <- !K. exact (zadd_coef Rth (st x) (st y) k).
  - rewrite zsub_length. rewrite <- !D. pose proof (P x). pose proof (P y). split; [lia|]. intros k. rewrite <- !K. exact (zsub_coef Rth (st x) (st y) k).
  - rewrite cprod_length. rewrite <- !D. pose proof (P x). pose proof (P y). split; [lia|]. intros k.
    rewrite (sum_nth_ext _ (fun i => rmul (nth i (st x) rO) (nth (k - i) (st y) rO))) by (intros i; now rewrite <- !K). exact (cprod_coef Rth (st x) (st y) k).
  - rewrite map_length. split; [apply D|]. intros k. rewrite <- K. apply nth_scale.
  - rewrite <- D. pose proof (P x). cbn [length]. split; [lia|]. intros [|k]; [reflexivity|apply K].
  - rewrite zadd_length. rewrite <- !D. pose proof (P x). pose proof (P y). split; [lia|]. intros k. rewrite <- !K. exact (zadd_coef Rth (st x) (st y) k).
  - rewrite zsub_length. rewrite <- !D. pose proof (P x). pose proof (P y). split; [lia|]. intros k. rewrite <- !K. exact (zsub_coef Rth (st x) (st y) k).
  - rewrite cprod_length. rewrite <- !D. pose proof (P x). pose proof (P y). split; [lia|]. intros k.
    rewrite (sum_nth_ext _ (fun i => rmul (nth i (st x) rO) (nth (k - i) (st y) rO))) by (intros i; now rewrite <- !K). exact (cprod_coef Rth (st x) (st y) k).
  - rewrite map_length. split; [apply D|]. intros k. rewrite <- K. apply nth_scale.
Qed.
Lemma value_zeros n t : polyval t (repeat rO n) = rO.
Proof. induction n as [|n IH]; simpl repeat; [reflexivity|]. rewrite (polyval_cons (radd := radd)), IH. ring. Qed.
Lemma exec_values s st m : no_empty s -> (forall v, st v <> []) -> (forall v t, polyval t (st v) = m v t) ->
  exists st', exec s st = Ok st' /\ (forall v, st' v <> []) /\ forall v t, polyval t (st' v) = fun_meaning1 rO radd rmul rsub (fun l t => polyval t l) m s v t.
Proof.
  intros W N K. destruct (exec_spec s st W N) as [st' [E [O C]]]. exists st'. split; [exact E|].
  assert (Q : forall v, v <> target s -> fun_meaning1 rO radd rmul rsub (fun l t => polyval t l) m s v = m v).
  { intros v Hv. destruct s; cbn [fun_meaning1 target] in *; unfold f_set; destruct (Nat.eqb_spec v x); try congruence; destruct (Nat.eqb_spec v z); congruence. }
  split.
  - intros v. destruct (Nat.eq_dec v (target s)) as [->|Hv]; [rewrite C; now apply content_ne|rewrite O by exact Hv; apply N].
  - intros v t. destruct (Nat.eq_dec v (target s)) as [->|Hv]; [|rewrite O, Q by exact Hv; apply K]. rewrite C.
    destruct s; cbn [fun_meaning1 target content]; unfold f_set; rewrite Nat.eqb_refl; rewrite <- ?K.
    + apply value_zeros.
    + reflexivity.
    + reflexivity.
    + apply (eval_zadd Rth).
    + apply (eval_zsub Rth).
    + apply (eval_cprod Rth). left. apply N.
    + apply (eval_scale Rth).
    + rewrite (polyval_cons (radd := radd)). ring.
    + apply (eval_zadd Rth).
    + apply (eval_zsub Rth).
    + apply (eval_cprod Rth). left. apply N.
    + apply (eval_scale Rth).
Qed.
End Proofs.

(** C123.  Every program of constructions, copies, +=, -=, *= (also with the object itself on the right), scalings, mulx and binary operators on
    any number of named objects, none made empty, runs without undefined behaviour, and at the end every object has the degree and the
    coefficients that polynomial arithmetic gives. *)
Theorem C123_objects : forall (T : Type) (rO rI : T) radd rmul rsub ropp, ring_theory rO rI radd rmul rsub ropp eq ->
  forall (p : list stmt) (st : store), Forall no_empty p -> (forall v, st v <> []) ->
  exists st', run rO radd rsub rmul ropp p st = Ok st' /\
    let m := meaning rO radd rmul rsub p (fun v => (degree (st v), fun k => nth k (st v) rO)) in
    forall v, st' v <> [] /\ degree (st' v) = fst (m v) /\ forall k, nth k (st' v) rO = snd (m v) k.
Proof.
  intros T rO rI radd rmul rsub ropp Rth p st W N.
  assert (M : models (rO := rO) st (fun v => (degree (st v), fun k => nth k (st v) rO))) by (intros v; split; [apply N|split; reflexivity]).
  cbv zeta. revert M. generalize (fun v => (degree (st v), fun k => nth k (st v) rO)). intros m M. revert m st N M.
  induction p as [|s p IH]; intros m st N M.
  - exists st. split; [reflexivity|exact M].
  - inversion_clear W as [|? ? W1 W2]. destruct (exec_models Rth s st m W1 M) as [st1 [E M1]]. cbn [run meaning fold_left]. rewrite E. cbn [bind].
    apply (IH W2 _ st1); [intros v; apply M1|exact M1].
Qed.
Print Assumptions C123_objects.
(** the same on the values: what operator() of every object returns at every point *)
Theorem C123_values : forall (T : Type) (rO rI : T) radd rmul rsub ropp, ring_theory rO rI radd rmul rsub ropp eq ->
  forall (p : list stmt) (st : store), Forall no_empty p -> (forall v, st v <> []) ->
  exists st', run rO radd rsub rmul ropp p st = Ok st' /\
    forall v t, polyval rO radd rmul t (st' v) =
      fun_meaning rO radd rmul rsub (fun l t => polyval rO radd rmul t l) p (fun v t => polyval rO radd rmul t (st v)) v t.
Proof.
  intros T rO rI radd rmul rsub ropp Rth p st W N.
  assert (M : forall v t, polyval rO radd rmul t (st v) = (fun v t => polyval rO radd rmul t (st v)) v t) by (intros; reflexivity).
  revert M. generalize (fun v t => polyval rO radd rmul t (st v)). intros m M. revert m st N M.
  induction p as [|s p IH]; intros m st N M.
  - exists st. split; [reflexivity|exact M].
  - inversion_clear W as [|? ? W1 W2]. destruct (exec_values Rth s st m W1 N M) as [st1 [E [N1 M1]]]. cbn [run fun_meaning fold_left]. rewrite E. cbn [bind].
    exact (IH W2 _ st1 N1 M1).
Qed.
Print Assumptions C123_values.
(** operator== compares degrees and coefficients *)
Theorem C123_equality : forall (T : Type) (rO : T) (eqb : T -> T -> bool), (forall a b, eqb a b = true <-> a = b) ->
  forall P Q : list T, P <> [] -> Q <> [] ->
  same_coefs eqb P Q = true <-> degree P = degree Q /\ forall k, nth k P rO = nth k Q rO.
Proof.
  intros T rO eqb B P Q HP HQ. assert (K : same_coefs eqb P Q = true <-> P = Q).
  { clear HP HQ. revert Q. induction P as [|a P IH]; intros [|b Q]; cbn [same_coefs]; split; intros H; try discriminate; auto.
    - apply andb_prop in H. destruct H as [H1 H2]. apply B in H1. apply IH in H2. congruence.
    - injection H as -> ->. apply andb_true_intro. split; [now apply B|now apply IH]. }
  rewrite K. split; [intros ->; split; reflexivity|]. intros [D C]. unfold degree in D.
  assert (L : length P = length Q) by (destruct P, Q; try congruence; simpl in *; lia). exact (nth_ext P Q rO rO L (fun k _ => C k)).
Qed.
Print Assumptions C123_equality.
(** FINDING: equality of objects is not equality of polynomials: P - P is announced with the degree of P and differs from the zero polynomial *)
Theorem C123_zero_difference_refuted : forall (T : Type) (rO rI : T) radd rmul rsub ropp (eqb : T -> T -> bool), ring_theory rO rI radd rmul rsub ropp eq ->
  forall (st : store), (forall v, st v <> []) -> 1 <= degree (st 0) ->
  exists st', run rO radd rsub rmul ropp [SubAssign 0 0; NewCoefs 1 [rO]] st = Ok st' /\
    (forall k, nth k (st' 0) rO = rO) /\ (forall t, polyval rO radd rmul t (st' 0) = polyval rO radd rmul t (st' 1)) /\
    degree (st' 0) = degree (st 0) /\ same_coefs eqb (st' 0) (st' 1) = false.
Proof.
  intros T rO rI radd rmul rsub ropp eqb Rth st N D.
  assert (W : Forall (@no_empty T) [SubAssign 0 0; NewCoefs 1 [rO]]) by (repeat constructor; discriminate).
  destruct (C123_objects T rO rI radd rmul rsub ropp Rth _ st W N) as [st' [E M]].
  destruct (C123_values T rO rI radd rmul rsub ropp Rth _ st W N) as [st2 [E2 V]]. rewrite E in E2. injection E2 as <-.
  exists st'. split; [exact E|]. cbn in M. assert (Z : forall a, rsub a a = rO).
  { intros a. rewrite (Rsub_def Rth). apply (Ropp_def Rth). }
  split; [intros k; rewrite (proj2 (proj2 (M 0))); cbn; apply Z|].
  split; [|split].
  - intros t. rewrite (V 0), (V 1). cbn -[polyval]. rewrite Z. rewrite (polyval_cons (radd := radd)). change (polyval rO radd rmul t []) with rO.
    rewrite (Radd_comm Rth), (Radd_0_l Rth), (mul_0_l Rth). reflexivity.
  - destruct (M 0) as [_ [Q _]]. rewrite Q. cbn. lia.
  - destruct (M 0) as [_ [Q _]]. destruct (M 1) as [_ [Q1 _]]. cbn in Q, Q1. unfold degree in *.
    destruct (st' 0) as [|a [|b l]]; cbn in Q; try lia. destruct (st' 1) as [|c [|d r]] eqn:E1; cbn in Q1; try lia; cbn [same_coefs].
    + reflexivity.
    + now rewrite Bool.andb_false_r.
Qed.
Print Assumptions C123_zero_difference_refuted.
(** x += x; x *= x; y = x - z; y.mulx() from x = 1 + 2t, z = 5: x = 4 + 16t + 16t^2, y = (-1 + 16t + 16t^2) t *)
Example C123_nonvacuous :
  exists st', run 0%Z Z.add Z.sub Z.mul Z.opp [AddAssign 0 0; MulAssign 0 0; Minus 1 0 2; Mulx 1] (fun v => if v =? 0 then [1; 2]%Z else [5%Z]) = Ok st' /\
    st' 0 = [4; 16; 16]%Z /\ st' 1 = [0; -1; 16; 16]%Z /\ st' 2 = [5%Z].
Proof. eexists. split; [reflexivity|]. repeat split. Qed.
