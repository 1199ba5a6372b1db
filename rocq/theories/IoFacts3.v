From Coq Require Import ZArith QArith Ascii.
From Verif Require Import Base Io IoSpec IoFacts IoFacts2 IoNumber IoNumberFacts.
From Coq Require Import Lia.
Open Scope nat_scope.
Set Implicit Arguments.

Lemma fields_join sep ps : Forall (fun p => p <> [] /\ ~ In sep p) ps -> fields sep (join sep ps) ps.
Proof.
  induction 1 as [|p ps [N F] H IH]; [constructor|]. cbn [join]. destruct ps as [|q ps]; [now constructor|]. now constructor.
Qed.
Lemma join_chars sep ps c : In c (join sep ps) -> c = sep \/ exists p, In p ps /\ In c p.
Proof.
  induction ps as [|p ps IH]; [intros []|]. cbn [join]. destruct ps as [|q ps].
  - intros H. right. exists p. split; [now left|exact H].
  - intros H. apply in_app_or in H. destruct H as [H|[H|H]].
    + right. exists p. split; [now left|exact H].
    + now left.
    + destruct (IH H) as [E|[r [I C]]]; [now left|]. right. exists r. split; [now right|exact C].
Qed.

Lemma columns_fst ps : map fst (columns ps) = ps.
Proof.
  rewrite <- number_columns. generalize 0%Z. induction ps as [|p ps IH]; intros c; [reflexivity|]. cbn. now rewrite IH.
Qed.
Lemma chosen_nil cols : chosen [] cols = cols.
Proof. unfold chosen. induction cols as [|x l IH]; cbn; congruence. Qed.

Section Conv.
Context {V : Type} (num : text -> outcome V) (convs : list (Z * (text -> outcome V))).
(** The parser of column [k]: the converter registered for k, or the default. *)
Definition parser (ty : text -> outcome V) (k : Z) (p : text) : outcome V := match dict_find convs k with Some g => g p | None => ty p end.

Lemma convert_parser ty k p filters : ~ In nul p -> convert ty (k, p) convs filters =
  do v <- parser ty k p; Ok (match dict_find filters k with Some f => if f v then Some v else None | None => Some v end).
Proof.
  intros H. unfold convert, parser. rewrite cstr_free by exact H.
  assert (E : (if negb (is_nil convs) then match dict_find convs k with Some f => f p | None => ty p end else ty p) =
    match dict_find convs k with Some g => g p | None => ty p end) by (destruct convs; reflexivity).
  rewrite E. destruct (match dict_find convs k with Some g => g p | None => ty p end); try reflexivity. cbn [bind].
  destruct filters as [|[k' f] fs]; [reflexivity|]. cbn [is_nil]. destruct (dict_find _ k); reflexivity.
Qed.

Lemma push_conv : forall calls vec len, (forall p, In p (map fst calls) -> ~ In nul p) ->
  forall f : nat -> text -> V, (forall i p, nth_error (map fst calls) i = Some p -> parser num (len + Z.of_nat i) p = Ok (f i p)) ->
  exists vs, push_tokens num vec calls len convs [] = Ok (vec ++ vs, (len + Z.of_nat (length calls))%Z) /\ length vs = length calls /\
    forall i p, nth_error (map fst calls) i = Some p -> nth_error vs i = Some (f i p).
Proof.
  induction calls as [|[p c] calls IH]; intros vec len Z0 f H.
  - exists []. cbn [push_tokens length]. rewrite app_nil_r. split; [do 2 f_equal; lia|]. split; [reflexivity|]. intros [|i] q E; discriminate.
  - cbn [push_tokens map fst]. rewrite convert_parser by (apply Z0; now left). pose proof (H 0 p eq_refl) as H0. rewrite Z.add_0_r in H0. rewrite H0. cbn [bind dict_find].
    destruct (IH (vec ++ [f 0 p]) (len + 1)%Z) with (f := fun i => f (S i)) as [vs [E [L C]]].
    + intros q Hq. apply Z0. now right.
    + intros i q E. replace (len + 1 + Z.of_nat i)%Z with (len + Z.of_nat (S i))%Z by lia. apply (H (S i)). exact E.
    + exists (f 0 p :: vs). rewrite E. split; [rewrite <- app_assoc; cbn [app length]; do 2 f_equal; lia|]. split; [cbn; lia|].
      intros [|i] q Eq; cbn [nth_error map fst] in *; [now injection Eq as <-|]. now apply C.
Qed.
End Conv.

Lemma fields_no_nul sep s ps p : fields sep s ps -> ~ In nul s -> In p ps -> ~ In nul p.
Proof.
  induction 1 as [|s ps H IH|q N F|q s ps N F H IH]; intros Z0 I; [destruct I| | |].
  - apply IH; [intros X; apply Z0; now right|exact I].
  - destruct I as [<-|[]]. exact Z0.
  - destruct I as [<-|I]; [intros X; apply Z0, in_or_app; now left|]. apply IH; [intros X; apply Z0, in_or_app; right; now right|exact I].
Qed.

Lemma chosen_in usecols cols x : In x (chosen usecols cols) -> In x cols.
Proof. unfold chosen. intros H. apply filter_In in H. apply H. Qed.
Lemma columns_in ps x : In x (columns ps) -> In (fst x) ps.
Proof. intros H. rewrite <- (columns_fst ps). now apply in_map. Qed.

(** ** The tuple loader *)
Section Tuple.
Context {V : Type} (convs : list (Z * (text -> outcome V))) (filters : list (Z * (V -> bool))).

Lemma tokenize_ok : forall calls N k, k + length calls = N -> tokenize_calls N k calls = Ok (map (fun x => (snd x, fst x)) calls).
Proof.
  induction calls as [|[p c] calls IH]; intros N k H; cbn [tokenize_calls length map fst snd] in *.
  - rewrite (proj2 (Nat.eqb_eq k N)) by lia. reflexivity.
  - rewrite (proj2 (Nat.ltb_lt k N)) by lia. cbn [require]. rewrite IH by lia. reflexivity.
Qed.
Lemma tokenize_bad : forall calls N k, k <= N -> k + length calls <> N -> tokenize_calls N k calls = RequireFail.
Proof.
  induction calls as [|[p c] calls IH]; intros N k K H; cbn [tokenize_calls length] in *.
  - rewrite (proj2 (Nat.eqb_neq k N)) by lia. reflexivity.
  - destruct (k <? N) eqn:E; [|reflexivity]. cbn [require]. apply Nat.ltb_lt in E. rewrite IH by lia. reflexivity.
Qed.

(** [accepted c v]: no filter of column c rejects v. *)
Definition accepted (c : Z) (v : V) : Prop := match dict_find filters c with Some f => f v = true | None => True end.

Inductive row_values : list (text -> outcome V) -> list (text * Z) -> list V -> Prop :=
| rv_nil : row_values [] [] []
| rv_cons : forall ty types p c cells v vs, parser convs ty c p = Ok v -> row_values types cells vs -> row_values (ty :: types) ((p, c) :: cells) (v :: vs).

Lemma tokens_to_tuple_ok types cells vs : row_values types cells vs -> (forall p, In p (map fst cells) -> ~ In nul p) ->
  exists row, tokens_to_tuple types (map (fun x => (snd x, fst x)) cells) convs filters = Ok row /\
  ((Forall2 (fun x v => accepted (snd x) v) cells vs /\ all_some row = Some vs) \/ (~ Forall2 (fun x v => accepted (snd x) v) cells vs /\ all_some row = None)).
Proof.
  induction 1 as [|ty types p c cells v vs P H IH]; intros Z0.
  - exists []. split; [reflexivity|]. left. split; [constructor|reflexivity].
  - destruct IH as [row [E R]]; [intros q Hq; apply Z0; now right|]. cbn [map fst snd tokens_to_tuple]. rewrite convert_parser by (apply Z0; now left).
    rewrite P. cbn [bind]. rewrite E. cbn [bind]. eexists. split; [reflexivity|].
    assert (A : (accepted c v /\ match dict_find filters c with Some f => if f v then Some v else None | None => Some v end = Some v) \/
                (~ accepted c v /\ match dict_find filters c with Some f => if f v then Some v else None | None => Some v end = None)).
    { unfold accepted. destruct (dict_find filters c) as [f|]; [|now left]. destruct (f v); [now left|right; split; [discriminate|reflexivity]]. }
    destruct A as [[A1 A2]|[A1 A2]]; rewrite A2.
    + destruct R as [[R1 R2]|[R1 R2]].
      * left. split; [now constructor|]. cbn. unfold all_some in R2. now rewrite R2.
      * right. split; [intros X; inversion X; auto|]. cbn. unfold all_some in R2. now rewrite R2.
    + right. split; [intros X; inversion X; auto|]. reflexivity.
Qed.

Lemma load_line_ok types sep usecols line cells vs : iterate_line line sep usecols = Ok cells -> row_values types cells vs ->
  (forall p, In p (map fst cells) -> ~ In nul p) ->
  exists row, load_line_to_tuple types line sep convs filters usecols = Ok row /\
  ((Forall2 (fun x v => accepted (snd x) v) cells vs /\ all_some row = Some vs) \/ (~ Forall2 (fun x v => accepted (snd x) v) cells vs /\ all_some row = None)).
Proof.
  intros E R Z0. assert (L : length cells = length types) by (clear - R; induction R; cbn; congruence).
  unfold load_line_to_tuple, tokenize. rewrite E. cbn [bind]. rewrite tokenize_ok by lia. cbn [bind]. now apply tokens_to_tuple_ok.
Qed.

Lemma load_lines_ok types sep usecols : forall lns cells vals,
  Forall2 (fun l cs => iterate_line l sep usecols = Ok cs /\ forall p, In p (map fst cs) -> ~ In nul p) lns cells -> Forall2 (row_values types) cells vals ->
  exists k, kept (fun x => Forall2 (fun c v => accepted (snd c) v) (fst x) (snd x)) (combine cells vals) k /\
  (do rows <- map_outcome (fun line => load_line_to_tuple types line sep convs filters usecols) lns;
   Ok (flat_map (fun row => match all_some row with Some r => [r] | None => [] end) rows)) = Ok (map snd k).
Proof.
  induction lns as [|l lns IH]; intros cells vals H HV.
  - inversion H; subst. inversion HV; subst. exists []. split; [constructor|reflexivity].
  - inversion H as [|? cs ? cells' [E Z0] H']; subst. inversion HV as [|? vs ? vals' RV HV']; subst.
    destruct (IH _ _ H' HV') as [k [K1 K2]]. destruct (load_line_ok _ _ _ E RV Z0) as [row [E1 R]].
    cbn [map_outcome combine]. rewrite E1. cbn [bind].
    destruct (map_outcome _ lns) as [rows| | |]; cbn [bind] in K2; try discriminate K2. cbn [bind]. injection K2 as K2.
    destruct R as [[R1 R2]|[R1 R2]].
    + exists ((cs, vs) :: k). split; [now constructor|]. cbn [flat_map map snd]. rewrite R2, K2. reflexivity.
    + exists k. split; [now constructor|]. cbn [flat_map]. rewrite R2, K2. reflexivity.
Qed.
End Tuple.
