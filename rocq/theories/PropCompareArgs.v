(** C113: comparison functions and their arguments. *)
From Coq Require Import List Arith Bool Lia.
From Verif Require Import Base Functional FunctionalProofs CompareArgs.
Import ListNotations.
Open Scope nat_scope.

Section Spec.
Variable T : Type.
(** the truth value of [c] at each position *)
Definition elementwise (c : T -> T -> bool) (a b : list T) : list bool := map (fun p => c (fst p) (snd p)) (combine a b).
(** A call of a comparison function with argument expressions x, y holding a, b compiles, rejects different sizes, yields [c] at each position, and
    leaves every argument that is not an rvalue (a temporary or std::move) as it was. *)
Definition compares (call : arg -> arg -> list T -> list T -> option (outcome (list bool * list T * list T))) (c : T -> T -> bool) (x y : arg) : Prop :=
  forall a b, if length a =? length b
    then exists a' b', call x y a b = Some (Ok (elementwise c a b, a', b')) /\ (rvalue x = false -> a' = a) /\ (rvalue y = false -> b' = b)
    else call x y a b = Some RequireFail.

Lemma forward_self x : forward x x = Some x.
Proof. destruct x as [t c r k]. unfold forward. cbn. rewrite Nat.eqb_refl. destruct c; reflexivity. Qed.
Lemma combine_swap : forall a b : list T, combine b a = map (fun p => (snd p, fst p)) (combine a b).
Proof. induction a as [|u a IH]; intros [|v b]; cbn; try reflexivity. now rewrite IH. Qed.
Lemma elementwise_neg (c : T -> T -> bool) a b : map negb (elementwise c a b) = elementwise (fun u v => negb (c u v)) a b.
Proof. unfold elementwise. now rewrite map_map. Qed.
Lemma elementwise_swap (c : T -> T -> bool) a b : elementwise c b a = elementwise (fun u v => c v u) a b.
Proof. unfold elementwise. rewrite combine_swap, map_map. reflexivity. Qed.

Lemma map2_spec w (g : T -> T -> bool) x y a b :
  if length a =? length b
  then exists a' b', map2 w g x y a b = Ok (elementwise g a b, a', b') /\ (rvalue x = false -> a' = a) /\ (rvalue y = false -> b' = b) /\ (w = None -> a' = a /\ b' = b)
  else map2 w g x y a b = RequireFail.
Proof.
  unfold map2, require. destruct (Nat.eqb_spec (length a) (length b)) as [E|]; [|reflexivity]. rewrite (transform2_ok g a b E). cbn [bind].
  change (map _ (combine a b)) with (elementwise g a b). destruct w as [w|].
  - destruct (rvalue y) eqn:Ry; [|destruct (rvalue x) eqn:Rx]; do 2 eexists; (split; [reflexivity|]); repeat split; auto; discriminate.
  - do 2 eexists. split; [reflexivity|auto].
Qed.
Lemma direct w eqb ltb x y : compares (equal_call w eqb) eqb x y /\ compares (not_equal_call w eqb) (fun u v => negb (eqb u v)) x y /\
  compares (less_call w ltb) ltb x y /\ compares (greater_equal_call w ltb) (fun u v => negb (ltb u v)) x y.
Proof.
  assert (H1 : forall g, compares (fun x y a b => calls (forward x x) (forward y y) (fun x y => map2 w g x y a b)) g x y).
  { intros g a b. rewrite !forward_self. cbn [calls]. pose proof (map2_spec w g x y a b) as H. destruct (length a =? length b); [|now rewrite H].
    destruct H as (a' & b' & E & H1 & H2 & _). rewrite E. eauto. }
  assert (H2 : forall g, compares (fun x y a b => calls (forward x x) (forward y y) (fun x y => negated (map2 w g x y a b))) (fun u v => negb (g u v)) x y).
  { intros g a b. specialize (H1 g a b). cbv beta in H1 |- *. rewrite !forward_self in H1 |- *. cbn [calls] in H1 |- *.
    destruct (length a =? length b); [|injection H1 as ->; reflexivity].
    destruct H1 as (a' & b' & E & R). injection E as ->. exists a', b'. split; [|exact R]. cbn. rewrite transform1_map, elementwise_neg. reflexivity. }
  split; [exact (H1 eqb)|split; [exact (H2 eqb)|split; [exact (H1 ltb)|exact (H2 ltb)]]].
Qed.
Lemma swapped w ltb x y : type x = type y -> cst x = cst y -> w = None \/ rvalue x = rvalue y ->
  compares (greater_call w ltb) (fun u v => ltb v u) x y /\ compares (less_equal_call w ltb) (fun u v => negb (ltb v u)) x y.
Proof.
  intros Et Ec HW. destruct x as [t c r k], y as [t' c' r' k']. cbn in Et, Ec, HW. subst t' c'.
  assert (H : forall a b, if length a =? length b then exists a' b',
     map2 w ltb (Arg t c r k') (Arg t c r' k) b a = Ok (elementwise (fun u v => ltb v u) a b, b', a') /\ (r = false -> a' = a) /\ (r' = false -> b' = b)
     else map2 w ltb (Arg t c r k') (Arg t c r' k) b a = RequireFail).
  { intros a b. pose proof (map2_spec w ltb (Arg t c r k') (Arg t c r' k) b a) as H. rewrite (Nat.eqb_sym (length a)).
    destruct (length b =? length a); [|exact H]. destruct H as (b' & a' & E & H1 & H2 & H3). exists a', b'. rewrite E, elementwise_swap. cbn in H1, H2.
    split; [reflexivity|]. destruct HW as [-> | ->]; [destruct (H3 eq_refl); auto|auto]. }
  assert (F : forall k, forward (Arg t c r k) (Arg t c r' k') = Some (Arg t c r k')).
  { intros k0. unfold forward. cbn. rewrite Nat.eqb_refl. destruct c; reflexivity. }
  assert (G : forall k, forward (Arg t c r' k') (Arg t c r k) = Some (Arg t c r' k)).
  { intros k0. unfold forward. cbn. rewrite Nat.eqb_refl. destruct c; reflexivity. }
  split; intros a b; specialize (H a b); unfold greater_call, less_equal_call; rewrite F, G; cbn [calls rvalue];
    (destruct (length a =? length b); [|rewrite H; reflexivity]); destruct H as (a' & b' & E & H1 & H2); rewrite E; exists a', b'; (split; [|auto]); cbn;
    rewrite ?transform1_map, ?elementwise_neg; reflexivity.
Qed.
End Spec.

(** equal, not_equal, less and greater_equal, for all container types, const or not, lvalues and rvalues. *)
Theorem C113_direct : forall (T : Type) (as_element : option (bool -> T)) (eqb ltb : T -> T -> bool) (x y : arg),
  compares T (equal_call as_element eqb) eqb x y /\
  compares T (not_equal_call as_element eqb) (fun u v => negb (eqb u v)) x y /\
  compares T (less_call as_element ltb) ltb x y /\
  compares T (greater_equal_call as_element ltb) (fun u v => negb (ltb u v)) x y.
Proof. exact direct. Qed.
Print Assumptions C113_direct.

(** less_equal and greater: missing are operands of different container types or constness (do not compile) and arrays of bool where exactly one operand
    is an rvalue (the other one is overwritten), see C113_swapped_refuted. *)
Theorem C113_swapped_partial : forall (T : Type) (as_element : option (bool -> T)) (ltb : T -> T -> bool) (x y : arg),
  type x = type y -> cst x = cst y -> as_element = None \/ rvalue x = rvalue y ->
  compares T (greater_call as_element ltb) (fun u v => ltb v u) x y /\
  compares T (less_equal_call as_element ltb) (fun u v => negb (ltb v u)) x y.
Proof. exact swapped. Qed.
Print Assumptions C113_swapped_partial.

(** less_equal(a, b) and greater(a, b) do not compile when one of a, b is const and the other is not, or when one is a std::array and the other a
    std::vector, though less(a, b) does. With vectors of bool, less_equal(std::move(a), b) and greater(std::move(a), b) empty the named vector b and
    keep a; with std::arrays b receives b < a. *)
Theorem C113_swapped_refuted : forall (T : Type) (w : option (bool -> T)) (ltb : T -> T -> bool),
  (forall x y a b, type x <> type y \/ cst x <> cst y -> greater_call w ltb x y a b = None /\ less_equal_call w ltb x y a b = None) /\
  (forall t k a b, length a = length b -> exists r, elementwise bool (fun u v => negb u && v) b a = r /\
     greater_call (Some (fun u => u)) (fun u v => negb u && v) (Arg t false true k) (Arg t false false Vector) a b = Some (Ok (r, a, [])) /\
     less_equal_call (Some (fun u => u)) (fun u v => negb u && v) (Arg t false true k) (Arg t false false Vector) a b = Some (Ok (map negb r, a, [])) /\
     greater_call (Some (fun u => u)) (fun u v => negb u && v) (Arg t false true k) (Arg t false false Array) a b = Some (Ok (r, a, r))).
Proof.
  intros T w ltb. split.
  - intros x y a b H.
    assert (F : forward x y = None \/ forward y x = None).
    { unfold forward. rewrite (Nat.eqb_sym (type y)). destruct (Nat.eqb_spec (type x) (type y)) as [E|]; [|auto]. destruct H as [H|H]; [contradiction|].
      destruct (cst x), (cst y); cbn; auto; contradiction. }
    unfold greater_call, less_equal_call. destruct F as [-> | ->]; [auto|]. destruct (forward x y); auto.
  - intros t k a b E. eexists. split; [reflexivity|].
    unfold greater_call, less_equal_call, forward, map2, require. cbn. rewrite !Nat.eqb_refl, E, !Nat.eqb_refl. cbn.
    rewrite (transform2_ok (fun u v : bool => negb u && v) b a (eq_sym E)). cbn. rewrite transform1_map, map_id. auto.
Qed.
Print Assumptions C113_swapped_refuted.

Example C113_nonvacuous : let x := Arg 0 true false Vector in let y := Arg 1 false true Array in
  compares nat (less_call None Nat.ltb) Nat.ltb x y /\ less_call None Nat.ltb x y [1; 2] [2; 2] = Some (Ok ([true; false], [1; 2], [2; 2])) /\
  less_equal_call None Nat.ltb x x [1; 3] [2; 2] = Some (Ok ([true; false], [1; 3], [2; 2])) /\ less_equal_call None Nat.ltb x y [1; 3] [2; 2] = None.
Proof. split; [apply direct with (w := None) (ltb := Nat.ltb); exact Nat.eqb|]. split; [reflexivity|]. split; reflexivity. Qed.
