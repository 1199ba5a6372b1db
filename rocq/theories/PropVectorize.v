(** C107: vectorize. *)
From Verif Require Import Base Functional Vectorize.
Open Scope nat_scope.

Lemma tc_live {A B} (op : A -> outcome B) (f : A -> B) : (forall x, op x = Ok (f x)) -> forall a, transform_call op a = Ok (map f a).
Proof. intros H a. induction a as [|x a IH]; cbn [transform_call map]; [reflexivity|]. rewrite H. cbn [bind]. now rewrite IH. Qed.
Lemma tc2_live {A B C} (op : A -> B -> outcome C) (f : A -> B -> C) : (forall x y, op x y = Ok (f x y)) -> forall a b, length a = length b ->
  exists r, transform_call2 op a b = Ok r /\ length r = length a /\
  forall i x y, nth_error a i = Some x -> nth_error b i = Some y -> nth_error r i = Some (f x y).
Proof.
  intros H. induction a as [|x a IH]; intros [|y b] E; try discriminate; cbn [transform_call2].
  - exists []. split; [reflexivity|]. split; [reflexivity|]. intros [|i]; discriminate.
  - rewrite H. cbn [bind]. destruct (IH b) as (r & E1 & E2 & E3); [now injection E|]. rewrite E1. cbn [bind]. eexists. split; [reflexivity|]. split; [cbn; now rewrite E2|].
    intros [|i] u v Hu Hv; cbn in *; [congruence|]. now apply E3.
Qed.

(** While the callable f given to vectorize lives (a named function object, at any later time of its life), the vectorized function
    applied to an array is f on each element in order, on two arrays of the same size f on each pair; arrays of different sizes are rejected;
    on scalars it is f itself.  Only const arrays (or results of another element type) leave the argument unchanged. *)
Theorem C107_elementwise_partial :
  (forall A B (s : store (A -> B)) (t : addr) (f : A -> B), s t = Some f ->
    let '(g, s') := define_named s t in
    (forall x, call_scalar s' g x = Ok (f x)) /\
    (forall a, call_array_diff s' g a = Ok (map f a, a))) /\
  (forall A (s : store (A -> A)) (t : addr) (f : A -> A) c, s t = Some f ->
    let '(g, s') := define_named s t in
    forall a, call_array_same c ConstLvalue s' g a = Ok (map f a, a) /\
      (exists rest, call_array_same c Rvalue s' g a = Ok (map f a, rest)) /\
      (exists rest, call_array_same c Lvalue s' g a = Ok (map f a, rest))) /\
  (forall A B C (s : store (A -> B -> C)) (t : addr) (f : A -> B -> C), s t = Some f ->
    let '(g, s') := define_named s t in
    (forall x y, call_scalar2 s' g x y = Ok (f x y)) /\
    (forall a b, length a <> length b -> call_array2 s' g a b = RequireFail) /\
    (forall a b, length a = length b -> exists r, call_array2 s' g a b = Ok r /\ length r = length a /\
      forall i x y, nth_error a i = Some x -> nth_error b i = Some y -> nth_error r i = Some (f x y))).
Proof.
  split; [|split].
  - intros A B s t f H. cbn [define_named vectorize]. assert (L : forall x, call_scalar s (Closure t) x = Ok (f x)) by (intros x; unfold call_scalar, load; now rewrite H).
    split; [exact L|]. intros a. unfold call_array_diff. unfold vectorize. rewrite (tc_live _ f L). reflexivity.
  - intros A s t f c H. cbn [define_named vectorize]. assert (L : forall x, call_scalar s (Closure t) x = Ok (f x)) by (intros x; unfold call_scalar, load; now rewrite H).
    intros a. unfold call_array_same, vectorize. rewrite (tc_live _ f L). cbn [bind]. split; [reflexivity|]. split; eexists; reflexivity.
  - intros A B C s t f H. cbn [define_named vectorize]. assert (L : forall x y, call_scalar2 s (Closure t) x y = Ok (f x y)) by (intros x y; unfold call_scalar2, load; now rewrite H).
    split; [exact L|]. unfold call_array2, vectorize. split.
    + intros a b E. apply Nat.eqb_neq in E. now rewrite E.
    + intros a b E. pose proof E as E'. apply Nat.eqb_eq in E'. rewrite E'. cbn [require]. exact (tc2_live _ f L a b E).
Qed.
Print Assumptions C107_elementwise_partial.

(** FINDING: vectorize captures its argument by reference; a vectorized function defined from a lambda expression, as are all of
    maths.hpp ([const auto sin = vectorize([](auto x) {...})]), refers to a destroyed temporary: every later call on a scalar or on a
    non-empty array is undefined behaviour. *)
Theorem C107_temporary_refuted : forall A B (s : store (A -> B)) (fresh : addr) (f : A -> B),
  let '(g, s') := define_temporary s fresh f in
  (forall x, call_scalar s' g x = UB) /\ (forall a, a <> [] -> call_array_diff s' g a = UB).
Proof.
  intros A B s t f. cbn [define_temporary vectorize]. assert (L : forall x, call_scalar (destroy (put s t f) t) (Closure t) x = UB).
  { intros x. unfold call_scalar, load, destroy. now rewrite Nat.eqb_refl. }
  split; [exact L|]. intros [|x a] H; [congruence|]. unfold call_array_diff, vectorize. cbn [transform_call]. rewrite L. reflexivity.
Qed.
Print Assumptions C107_temporary_refuted.

(** Also when another object is later created at a different address, and when a named callable is destroyed. *)
Theorem C107_lifetime_refuted : forall A B (s : store (A -> B)) (t : addr) (f : A -> B), s t = Some f ->
  let '(g, s') := define_named s t in
  forall x, call_scalar s' g x = Ok (f x) /\ call_scalar (destroy s' t) g x = UB.
Proof.
  intros A B s t f H. cbn [define_named vectorize]. intros x. unfold vectorize, call_scalar, load, destroy. rewrite H, Nat.eqb_refl. split; reflexivity.
Qed.
Print Assumptions C107_lifetime_refuted.

(** Histories: whatever is created and destroyed at other addresses, a vectorized function whose callable lives keeps computing it, and an
    object created at an address is the one called there; only its own destruction (or replacement) matters. *)
Theorem C107_history_partial : forall A B (s : store (A -> B)) (t : addr) (f : A -> B), s t = Some f ->
  let g := fst (define_named s t) in
  (forall ops : list (addr * option (A -> B)), (forall a o, In (a, o) ops -> a <> t) ->
     let s' := fold_left (fun s ao => match snd ao with Some h => put s (fst ao) h | None => destroy s (fst ao) end) ops (snd (define_named s t)) in
     (forall x, call_scalar s' g x = Ok (f x)) /\ (forall v, call_array_diff s' g v = Ok (map f v, v))) /\
  (forall fresh h, fresh <> t -> let s' := snd (define_temporary s fresh h) in
     (forall x, call_scalar s' g x = Ok (f x)) /\ (forall v, call_array_diff s' g v = Ok (map f v, v))) /\
  (forall h x, call_scalar (put s t h) g x = Ok (h x)).
Proof.
  intros A B s t f H. cbn [define_named vectorize fst snd].
  assert (K : forall s' : store (A -> B), s' t = Some f -> (forall x, call_scalar s' (Closure t) x = Ok (f x)) /\ (forall v, call_array_diff s' (Closure t) v = Ok (map f v, v))).
  { intros s' Hs. assert (L : forall x, call_scalar s' (Closure t) x = Ok (f x)) by (intros x; unfold call_scalar, load; now rewrite Hs).
    split; [exact L|]. intros v. unfold call_array_diff. rewrite (tc_live _ f L). reflexivity. }
  split; [|split].
  - intros ops Ho. apply K. revert s H. induction ops as [|[a o] ops IH]; intros s H; cbn [fold_left]; [exact H|].
    apply IH; [intros b q Hb; apply (Ho b q); now right|]. assert (Q : a <> t) by (apply (Ho a o); now left). apply not_eq_sym, Nat.eqb_neq in Q.
    destruct o; cbn [fst snd]; unfold put, destroy; now rewrite Q.
  - intros fresh h Q. apply K. cbn [define_temporary snd]. apply not_eq_sym, Nat.eqb_neq in Q. unfold destroy, put. now rewrite Q.
  - intros h x. unfold vectorize, call_scalar, load, put. now rewrite Nat.eqb_refl.
Qed.
Print Assumptions C107_history_partial.

Example C107_nonvacuous : exists s : store (nat -> nat), s 3 = Some S /\
  call_array_diff (snd (define_named s 3)) (fst (define_named s 3)) [5; 7] = Ok ([6; 8], [5; 7]).
Proof. exists (put (fun _ => None) 3 S). split; reflexivity. Qed.
