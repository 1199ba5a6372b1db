From Coq Require Import List Arith Ring.
From Verif Require Import Base Functional FunctionalProofs Spec SumLib Numeric Convolve ConvolveFacts Polynomial PolynomialFacts PolyObjects.
From Coq Require Import Lia.
Import ListNotations.
Open Scope nat_scope.

Section Facts.
Context {T : Type} {rO rI : T} {radd rmul rsub : T -> T -> T} {ropp : T -> T}.
Hypothesis Rth : ring_theory rO rI radd rmul rsub ropp eq.
Notation coef := (@coef T rO).

Lemma put_same (st : @store T) x l : put st x l x = l.
Proof. unfold put. now rewrite Nat.eqb_refl. Qed.
Lemma put_other (st : @store T) x l v : v <> x -> put st x l v = st v.
Proof. intros H. unfold put. destruct (Nat.eqb_spec v x); [contradiction|reflexivity]. Qed.

Lemma put_upd_coef (st : @store T) x pos c v k : pos < length (st x) ->
  coef (put st x (upd (st x) pos c) v) k = if (v =? x) && (k =? pos) then c else coef (st v) k.
Proof.
  intros H. unfold put. destruct (Nat.eqb_spec v x) as [->|N]; [|reflexivity]. rewrite (upd_coef (rO := rO)) by exact H.
  now destruct (k =? pos).
Qed.
Lemma put_upd_len (st : @store T) x pos c v : length (put st x (upd (st x) pos c) v) = length (st v).
Proof. unfold put. destruct (Nat.eqb_spec v x) as [->|N]; [apply upd_len|reflexivity]. Qed.

Lemma update_range_spec f cnt : forall (st : store) x y pos, pos + cnt <= length (st x) -> pos + cnt <= length (st y) ->
  exists st', update_range f st x y pos cnt = Ok st' /\ (forall v, length (st' v) = length (st v)) /\ (forall v, v <> x -> st' v = st v) /\
    forall k, coef (st' x) k = if (pos <=? k) && (k <? pos + cnt) then f (coef (st x) k) (coef (st y) k) else coef (st x) k.
Proof.
  induction cnt as [|cnt IH]; intros st x y pos H1 H2; cbn [update_range].
  - exists st. split; [reflexivity|]. split; [reflexivity|]. split; [reflexivity|]. intros k. rewrite Nat.add_0_r.
    destruct (Nat.leb_spec pos k), (Nat.ltb_spec k pos); simpl; auto; lia.
  - rewrite (at_ub_coef (rO := rO)) by lia. cbn [bind]. rewrite (at_ub_coef (rO := rO)) by lia. cbn [bind].
    rewrite set_ub_ok by lia. cbn [bind].
    destruct (IH (put st x (upd (st x) pos (f (coef (st x) pos) (coef (st y) pos)))) x y (S pos)) as [st' [E [L [O C]]]]; rewrite ?put_upd_len; try lia.
    exists st'. rewrite E. split; [reflexivity|]. split; [intros v; rewrite L; apply put_upd_len|].
    split; [intros v Hv; rewrite O by exact Hv; apply put_other, Hv|]. intros k. rewrite C, !put_upd_coef by lia. rewrite Nat.eqb_refl. cbn [andb].
    destruct (Nat.eqb_spec k pos) as [->|N].
    + destruct (Nat.leb_spec (S pos) pos); [lia|]. simpl. rewrite Nat.leb_refl.
      destruct (Nat.ltb_spec pos (pos + S cnt)); [reflexivity|lia].
    + rewrite andb_false_r.
      destruct (Nat.leb_spec (S pos) k), (Nat.leb_spec pos k), (Nat.ltb_spec k (S pos + cnt)), (Nat.ltb_spec k (pos + S cnt)); simpl; auto; lia.
Qed.
Lemma fill_range_spec g cnt : forall (st : store) x y pos, x <> y -> pos + cnt <= length (st x) -> pos + cnt <= length (st y) ->
  exists st', fill_range g st x y pos cnt = Ok st' /\ (forall v, length (st' v) = length (st v)) /\ (forall v, v <> x -> st' v = st v) /\
    forall k, coef (st' x) k = if (pos <=? k) && (k <? pos + cnt) then g (coef (st y) k) else coef (st x) k.
Proof.
  induction cnt as [|cnt IH]; intros st x y pos Hxy H1 H2; cbn [fill_range].
  - exists st. split; [reflexivity|]. split; [reflexivity|]. split; [reflexivity|]. intros k. rewrite Nat.add_0_r.
    destruct (Nat.leb_spec pos k), (Nat.ltb_spec k pos); simpl; auto; lia.
  - rewrite (at_ub_coef (rO := rO)) by lia. cbn [bind]. rewrite set_ub_ok by lia. cbn [bind].
    destruct (IH (put st x (upd (st x) pos (g (coef (st y) pos)))) x y (S pos)) as [st' [E [L [O C]]]]; rewrite ?put_upd_len; try lia; try assumption.
    exists st'. rewrite E. split; [reflexivity|]. split; [intros v; rewrite L; apply put_upd_len|].
    split; [intros v Hv; rewrite O by exact Hv; apply put_other, Hv|]. intros k. rewrite C, !put_upd_coef by lia. rewrite Nat.eqb_refl. cbn [andb].
    destruct (Nat.eqb_spec k pos) as [->|N].
    + destruct (Nat.leb_spec (S pos) pos); [lia|]. simpl. rewrite Nat.leb_refl.
      destruct (Nat.ltb_spec pos (pos + S cnt)); [reflexivity|lia].
    + rewrite andb_false_r.
      destruct (Nat.leb_spec (S pos) k), (Nat.leb_spec pos k), (Nat.ltb_spec k (S pos + cnt)), (Nat.ltb_spec k (pos + S cnt)); simpl; auto; lia.
Qed.
(** [f a 0 = a] and [f 0 b = g b] *)
Lemma assign_op_spec f g (st : store) x y : (forall a, f a rO = a) -> (forall b, f rO b = g b) -> st x <> [] -> st y <> [] ->
  exists st', assign_op rO f g st x y = Ok st' /\ (forall v, v <> x -> st' v = st v) /\
    length (st' x) = Nat.max (length (st x)) (length (st y)) /\
    forall k, coef (st' x) k = f (coef (st x) k) (coef (st y) k).
Proof.
  intros F0 FG Hx Hy. unfold assign_op. rewrite degree_gtb_ne by assumption.
  destruct (Nat.ltb_spec (length (st x)) (length (st y))) as [L|L].
  - assert (Hxy : x <> y) by (intros ->; lia). set (st1 := put st x (class_resize rO (st x) (length (st y)))).
    assert (L1 : length (st1 x) = length (st y)) by (unfold st1; rewrite put_same; apply class_resize_length).
    assert (Y1 : st1 y = st y) by (unfold st1; apply put_other; auto).
    destruct (update_range_spec f (length (st x)) st1 x y 0) as [st2 [E2 [L2 [O2 C2]]]]; [lia|rewrite Y1; lia|].
    rewrite E2. cbn [bind]. rewrite L2, L1.
    destruct (fill_range_spec g (length (st y) - length (st x)) st2 x y (length (st x)) Hxy) as [st3 [E3 [L3 [O3 C3]]]]; [rewrite L2; lia|rewrite L2, Y1; lia|].
    exists st3. split; [exact E3|]. split; [intros v Hv; rewrite O3, O2 by exact Hv; apply put_other, Hv|]. split; [rewrite L3, L2, L1; lia|].
    intros k. rewrite C3, C2, (O2 y) by auto. rewrite Y1. unfold st1. rewrite put_same, class_resize_coef.
    destruct (Nat.leb_spec (length (st x)) k), (Nat.ltb_spec k (length (st x) + (length (st y) - length (st x)))), (Nat.ltb_spec k (0 + length (st x))),
      (Nat.ltb_spec k (length (st y))); cbn [andb Nat.leb]; try lia; try reflexivity.
    + rewrite (coef_out (rO := rO) (st x)) by lia. symmetry; apply FG.
    + rewrite (coef_out (rO := rO) (st x)), (coef_out (rO := rO) (st y)) by lia. symmetry; apply F0.
  - destruct (update_range_spec f (length (st y)) st x y 0) as [st2 [E2 [L2 [O2 C2]]]]; [lia|lia|].
    exists st2. split; [exact E2|]. split; [exact O2|]. split; [rewrite L2; lia|]. intros k. rewrite C2. cbn [andb Nat.leb].
    destruct (Nat.ltb_spec k (0 + length (st y))); [reflexivity|]. rewrite (coef_out (rO := rO) (st y)) by lia. symmetry; apply F0.
Qed.
Add Ring R_ : Rth.
Lemma plus_assign_spec (st : store) x y : st x <> [] -> st y <> [] ->
  exists st', plus_assign rO radd st x y = Ok st' /\ (forall v, v <> x -> st' v = st v) /\ st' x = zadd (rO := rO) (radd := radd) (st x) (st y).
Proof.
  intros Hx Hy. destruct (assign_op_spec (fun a b => radd b a) (fun b => b) st x y) as [st' [E [O [L C]]]]; try assumption; [intros; ring|intros; ring|].
  exists st'. split; [exact E|]. split; [exact O|]. apply (list_ext (rO := rO)); [rewrite L, zadd_length; reflexivity|].
  intros k _. rewrite C, (zadd_coef Rth). ring.
Qed.
Lemma minus_assign_spec (st : store) x y : st x <> [] -> st y <> [] ->
  exists st', minus_assign rO rsub ropp st x y = Ok st' /\ (forall v, v <> x -> st' v = st v) /\ st' x = zsub (rO := rO) (rsub := rsub) (st x) (st y).
Proof.
  intros Hx Hy. destruct (assign_op_spec rsub ropp st x y) as [st' [E [O [L C]]]]; try assumption; [intros; ring|intros; ring|].
  exists st'. split; [exact E|]. split; [exact O|]. apply (list_ext (rO := rO)); [rewrite L, zsub_length; reflexivity|].
  intros k _. rewrite C, (zsub_coef Rth). reflexivity.
Qed.
End Facts.
