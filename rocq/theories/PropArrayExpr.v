(** C112: expressions of arrays. *)
From Coq Require Import List Arith Lia ZArith.
From Verif Require Import Base Functional FunctionalProofs ArrayExpr ArrayExprFacts.
Import ListNotations.
Open Scope nat_scope.

Section Spec.
Variable T : Type.
Variables (zero : T) (opp lnot : T -> T) (add sub mul div modulus land lor : T -> T -> T).

(** The scalar expression with the same shape, [env i] standing for the i-th name. *)
Fixpoint den (e : expr T) (env : nat -> T) : T :=
  match e with
  | Var i | Move i => env i
  | Neg e => opp (den e env) | Not e => lnot (den e env)
  | MulS e s => mul (den e env) s | SMul s e => mul s (den e env)
  | AddS e s => add (den e env) s | SAdd s e => add s (den e env)
  | SubS e s => sub (den e env) s | SSub s e => sub s (den e env)
  | DivS e s => div (den e env) s | SDiv s e => div s (den e env)
  | ModS e s => modulus (den e env) s | SMod s e => modulus s (den e env)
  | Mul a b => mul (den a env) (den b env) | And a b => land (den a env) (den b env) | Or a b => lor (den a env) (den b env)
  | Add a b => add (den a env) (den b env) | Sub a b => sub (den a env) (den b env)
  | Div a b => div (den a env) (den b env) | Mod a b => modulus (den a env) (den b env)
  end.
(** how often the i-th name occurs *)
Fixpoint occurrences (i : nat) (e : expr T) : nat :=
  match e with
  | Var j | Move j => if i =? j then 1 else 0
  | Neg e | Not e | MulS e _ | SMul _ e | AddS e _ | SAdd _ e | SubS e _ | SSub _ e | DivS e _ | SDiv _ e | ModS e _ | SMod _ e => occurrences i e
  | Mul a b | And a b | Or a b | Add a b | Sub a b | Div a b | Mod a b => occurrences i a + occurrences i b
  end.
(** the common length of the arrays of the expression, if there is one *)
Fixpoint common_size (st : store T) (e : expr T) : option nat :=
  match e with
  | Var i | Move i => Some (length (lookup st i))
  | Neg e | Not e | MulS e _ | SMul _ e | AddS e _ | SAdd _ e | SubS e _ | SSub _ e | DivS e _ | SDiv _ e | ModS e _ | SMod _ e => common_size st e
  | Mul a b | And a b | Or a b | Add a b | Sub a b | Div a b | Mod a b =>
      match common_size st a, common_size st b with Some n, Some m => if n =? m then Some n else None | _, _ => None end
  end.
(** The i-th array is given away: it is moved, or an operator with one array operand is applied directly to its name and it is not const. *)
Definition bare (st : store T) (e : expr T) (i : nat) : Prop := e = Var i /\ const_at st i = false.
Fixpoint given_away (st : store T) (e : expr T) (i : nat) : Prop :=
  match e with
  | Var _ => False
  | Move j => i = j
  | Neg e | Not e | MulS e _ | SMul _ e | AddS e _ | SAdd _ e | SubS e _ | SSub _ e | DivS e _ | SDiv _ e | ModS e _ | SMod _ e =>
      given_away st e i \/ bare st e i
  | Mul a b | And a b | Or a b | Add a b | Sub a b | Div a b | Mod a b => given_away st a i \/ given_away st b i
  end.

Fixpoint nf (e : expr T) : gexpr T :=
  match e with
  | Var i => GVar T i | Move i => GMove T i
  | Neg e => GUn opp (nf e) | Not e => GUn lnot (nf e)
  | MulS e s => GUn (fun v => mul s v) (nf e) | SMul s e => GUn (fun v => mul s v) (nf e)
  | AddS e s => GUn (fun v => add s v) (nf e) | SAdd s e => GUn (fun v => add s v) (nf e)
  | SubS e s => GUn (fun v => sub v s) (nf e) | SSub s e => GUn (fun v => sub s v) (nf e)
  | DivS e s => GUn (fun v => div v s) (nf e) | SDiv s e => GUn (fun v => div s v) (nf e)
  | ModS e s => GUn (fun v => modulus v s) (nf e) | SMod s e => GUn (fun v => modulus s v) (nf e)
  | Mul a b => GBin mul (nf a) (nf b) | And a b => GBin land (nf a) (nf b) | Or a b => GBin lor (nf a) (nf b)
  | Add a b => GBin add (nf a) (nf b) | Sub a b => GBin sub (nf a) (nf b) | Div a b => GBin div (nf a) (nf b) | Mod a b => GBin modulus (nf a) (nf b)
  end.
Lemma eval_nf ord : forall e path st, eval opp lnot add sub mul div modulus land lor ord path st e = geval ord path st (nf e).
Proof.
  induction e; intros path st; cbn [eval nf geval]; try reflexivity; try (now rewrite IHe);
    (destruct (ord path); [rewrite IHe1; destruct (geval ord (true :: path) st (nf e1)); cbn [bind]; [|reflexivity..]; now rewrite IHe2
                          |rewrite IHe2; destruct (geval ord (false :: path) st (nf e2)); cbn [bind]; [|reflexivity..]; now rewrite IHe1]).
Qed.
Lemma occ_nf i e : gocc i (nf e) = occurrences i e.
Proof. induction e; cbn; auto. Qed.
Lemma shape_nf st e : gshape st (nf e) = common_size st e.
Proof. induction e; cbn [nf gshape common_size]; auto; now rewrite IHe1, IHe2. Qed.
Lemma bare_nf st e i : bare st e i <-> match nf e with GVar _ j => i = j /\ const_at st j = false | _ => False end.
Proof.
  unfold bare. destruct e; cbn [nf]; try (split; [intros [C _]; discriminate C|contradiction]).
  split; intros [H1 H2]; [injection H1 as ->; auto|subst; auto].
Qed.
Lemma given_nf st i : forall e, gcons st (nf e) i <-> given_away st e i.
Proof. induction e; cbn [nf gcons given_away]; try tauto; rewrite ?IHe, ?IHe1, ?IHe2, ?bare_nf; tauto. Qed.
Hypothesis add_comm : forall x y, add x y = add y x.
Hypothesis mul_comm : forall x y, mul x y = mul y x.
Lemma den_nf e env : gden (nf e) env = den e env.
Proof. induction e; cbn [nf gden den]; try congruence; rewrite IHe; auto. Qed.

Lemma eval_spec ord st e : (forall i, given_away st e i -> occurrences i e = 1) ->
  match common_size st e with
  | None => eval_to opp lnot add sub mul div modulus land lor ord st e = RequireFail
  | Some n => exists r st', eval_to opp lnot add sub mul div modulus land lor ord st e = Ok (r, st') /\ length r = n /\
      (forall k, k < n -> nth k r zero = den e (fun i => nth k (lookup st i) zero)) /\
      (forall i, ~ given_away st e i -> nth_error st' i = nth_error st i)
  end.
Proof.
  intros L. assert (L' : forall i, gcons st (nf e) i -> gocc i (nf e) = 1). { intros i Hi. rewrite given_nf in Hi. rewrite occ_nf. auto. }
  pose proof (@geval_good T zero ord (nf e) [] st L') as G. unfold good in G. rewrite shape_nf in G. unfold eval_to. rewrite eval_nf.
  destruct (common_size st e) as [n|]; [|now rewrite G].
  destruct G as (v & st' & E & R & N & C & V). rewrite E. cbn [bind fst snd]. do 2 eexists. split; [reflexivity|].
  rewrite R. split; [apply elems_length|]. split.
  - intros k Hk. unfold elems. rewrite (nth_indep _ zero ((fun k => gden (nf e) (column zero st k)) 0)) by (rewrite map_length, seq_length; lia).
    rewrite (map_nth (fun k => gden (nf e) (column zero st k)) (seq 0 n) 0 k), seq_nth by lia. cbn [plus]. rewrite den_nf. reflexivity.
  - intros i Hi. destruct v as [[|] j|l]; try (apply N; rewrite given_nf; exact Hi).
    destruct (V true j eq_refl) as [-> Ee]. apply clobber_other. intros ->. apply Hi. rewrite <- given_nf, Ee. reflexivity.
Qed.
End Spec.

(** For every expression, order of evaluation and contents: if no array that is given away occurs twice, then arrays of different sizes are
    rejected, and otherwise element k of the result is the scalar expression on the elements k, and every array not given away keeps its
    elements. (+ and * of the element type commute: both orders of scalar and array are computed as scalar op element.)
    Missing: arrays that are given away, or given away and used again, see C112_reuse_refuted. *)
Theorem C112_expressions_partial : forall (T : Type) (zero : T) opp lnot add sub mul div modulus land lor,
  (forall x y : T, add x y = add y x) -> (forall x y : T, mul x y = mul y x) ->
  forall (ord : list bool -> bool) (st : store T) (e : expr T),
  (forall i, given_away T st e i -> occurrences T i e = 1) ->
  match common_size T st e with
  | None => eval_to opp lnot add sub mul div modulus land lor ord st e = RequireFail
  | Some n => exists r st', eval_to opp lnot add sub mul div modulus land lor ord st e = Ok (r, st') /\ length r = n /\
      (forall k, k < n -> nth k r zero = den T opp lnot add sub mul div modulus land lor e (fun i => nth k (lookup st i) zero)) /\
      (forall i, ~ given_away T st e i -> nth_error st' i = nth_error st i)
  end.
Proof. intros T zero opp lnot add sub mul div modulus land lor CA CM ord st e L. exact (eval_spec T zero opp lnot add sub mul div modulus land lor CA CM ord st e L). Qed.
Print Assumptions C112_expressions_partial.

(** no std::move anywhere *)
Fixpoint no_move (T : Type) (e : expr T) : Prop :=
  match e with
  | Var _ => True
  | Move _ => False
  | Neg e | Not e | MulS e _ | SMul _ e | AddS e _ | SAdd _ e | SubS e _ | SSub _ e | DivS e _ | SDiv _ e | ModS e _ | SMod _ e => no_move T e
  | Mul a b | And a b | Or a b | Add a b | Sub a b | Div a b | Mod a b => no_move T a /\ no_move T b
  end.
Lemma const_kept (T : Type) (st : store T) : (forall v, In v st -> is_const v = true) -> forall e, no_move T e -> forall i, ~ given_away T st e i.
Proof.
  intros C. assert (B : forall e i, ~ bare T st e i).
  { intros e i [_ H]. unfold const_at in H. destruct (nth_error st i) as [v|] eqn:E; [|discriminate]. apply nth_error_In in E. rewrite (C v E) in H. discriminate. }
  induction e; cbn [no_move given_away]; intros M k; try tauto;
    try (intros [H|H]; [exact (IHe M k H)|exact (B _ _ H)]); (destruct M as [M1 M2]; intros [H|H]; [exact (IHe1 M1 k H)|exact (IHe2 M2 k H)]).
Qed.

(** The full claim for arrays declared const, however often each occurs: the value is right and every array is unchanged, in every order of evaluation. *)
Theorem C112_const : forall (T : Type) (zero : T) opp lnot add sub mul div modulus land lor,
  (forall x y : T, add x y = add y x) -> (forall x y : T, mul x y = mul y x) ->
  forall (ord : list bool -> bool) (st : store T) (e : expr T) (n : nat),
  (forall v, In v st -> is_const v = true) -> no_move T e -> common_size T st e = Some n ->
  exists r, eval_to opp lnot add sub mul div modulus land lor ord st e = Ok (r, st) /\ length r = n /\
    forall k, k < n -> nth k r zero = den T opp lnot add sub mul div modulus land lor e (fun i => nth k (lookup st i) zero).
Proof.
  intros T zero opp lnot add sub mul div modulus land lor CA CM ord st e n C M S. pose proof (const_kept T st C e M) as G.
  pose proof (eval_spec T zero opp lnot add sub mul div modulus land lor CA CM ord st e) as H. rewrite S in H.
  destruct H as (r & st' & E & L & V & N); [intros i Hi; destruct (G i Hi)|]. exists r. rewrite E. split; [|auto]. f_equal. f_equal.
  assert (X : forall i, nth_error st' i = nth_error st i) by (intros i; apply N, G).
  clear -X. revert st X. induction st' as [|a s' IH]; intros [|b s] X; [reflexivity|discriminate (X 0)|discriminate (X 0)|].
  pose proof (X 0) as X0. injection X0 as ->. f_equal. apply IH. intros i. exact (X (Datatypes.S i)).
Qed.
Print Assumptions C112_const.

(** The claim of C112 fails for a name that is not const: s * a + a for a non-empty std::vector ends in the size check (undefined behaviour
    under NDEBUG), for a std::array it is s*a + s*a; and s * a alone leaves a vector empty and an array multiplied. *)
Theorem C112_reuse_refuted : forall (T : Type) opp lnot add sub mul div modulus land lor (ord : list bool -> bool) (l : list T) (s : T),
  (l <> [] -> eval_to opp lnot add sub mul div modulus land lor ord [Named false Vector l] (Add (SMul s (Var 0)) (Var 0)) = RequireFail) /\
  (exists st', eval_to opp lnot add sub mul div modulus land lor ord [Named false Array l] (Add (SMul s (Var 0)) (Var 0))
     = Ok (map (fun x => add (mul s x) (mul s x)) l, st')) /\
  eval_to opp lnot add sub mul div modulus land lor ord [Named false Vector l] (SMul s (Var 0)) = Ok (map (mul s) l, [Named false Vector []]) /\
  eval_to opp lnot add sub mul div modulus land lor ord [Named false Array l] (SMul s (Var 0)) = Ok (map (mul s) l, [Named false Array (map (mul s) l)]).
Proof.
  intros T opp lnot add sub mul div modulus land lor ord l s. split; [|split; [|split]].
  - intros H. unfold eval_to. cbn. destruct (ord []); cbn; rewrite transform1_map; destruct l; cbn; congruence.
  - eexists. unfold eval_to. cbn [eval].
    assert (E : forall st v, st = [Named false Array (map (mul s) l)] -> v = Tmp (map (mul s) l) ->
      bin2 add st v (Ref T false 0) = Ok (Tmp (map (fun x => add (mul s x) (mul s x)) l), st)).
    { intros st v -> ->. unfold bin2, require. cbn [read lookup nth_error data]. rewrite Nat.eqb_refl, (transform2_ok add (map (mul s) l) (map (mul s) l) eq_refl).
      cbn [bind]. f_equal. f_equal. f_equal. induction l as [|x l' IH]; cbn; [reflexivity|now rewrite IH]. }
    destruct (ord []); cbn [bind fst snd map1 const_at nth_error is_const lookup data read clobber kind moved_from upd]; rewrite transform1_map; change (fun v : T => mul s v) with (mul s); rewrite (E _ _ eq_refl eq_refl); reflexivity.
  - unfold eval_to. cbn. now rewrite transform1_map.
  - unfold eval_to. cbn. now rewrite transform1_map.
Qed.
Print Assumptions C112_reuse_refuted.

(** -(2 * a) + (b - b) with a given away (not const, once) and b kept, and one with different sizes. *)
Example C112_nonvacuous :
  let st := [Named false Vector [1; 2; 3]%Z; Named false Vector [5; 6; 7]%Z; Named true Array [4]%Z] in
  let e := Add (Neg (SMul 2%Z (Var 0))) (Sub (Var 1) (Var 1)) in
  (forall i, given_away Z st e i -> occurrences Z i e = 1) /\ common_size Z st e = Some 3 /\
  (forall ord, eval_to Z.opp Z.opp Z.add Z.sub Z.mul Z.div Z.modulo Z.land Z.lor ord st e
     = Ok ([-2; -4; -6]%Z, [Named false Vector []; Named false Vector [5; 6; 7]%Z; Named true Array [4]%Z])) /\
  common_size Z st (Mul (Var 1) (Var 2)) = None.
Proof.
  split; [|split; [reflexivity|split; [|reflexivity]]].
  - intros i H. cbn in H. unfold bare in H. destruct H as [[[H|[H _]]|[H _]]|[[]|[]]]; try contradiction; try discriminate. injection H as <-. reflexivity.
  - intros ord. unfold eval_to. cbn. destruct (ord [false]), (ord []); reflexivity.
Qed.
