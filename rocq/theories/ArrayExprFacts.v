From Coq Require Import List Arith Lia.
From Verif Require Import Base Functional FunctionalProofs ArrayExpr.
Import ListNotations.
Open Scope nat_scope.
Set Implicit Arguments.

Section Facts.
Variable T : Type.
Variable zero : T.

Inductive gexpr := GVar (i : nat) | GMove (i : nat) | GUn (f : T -> T) (e : gexpr) | GBin (g : T -> T -> T) (a b : gexpr).

Section GEval.
Variable ord : list bool -> bool.
Fixpoint geval (path : list bool) (st : store T) (e : gexpr) : outcome (value T * store T) :=
  match e with
  | GVar i => Ok (Ref T false i, st)
  | GMove i => Ok (Ref T true i, st)
  | GUn f e => do r <- geval (true :: path) st e; map1 f (snd r) (fst r)
  | GBin g a b =>
    if ord path then
      do ra <- geval (true :: path) st a; do rb <- geval (false :: path) (snd ra) b; bin2 g (snd rb) (fst ra) (fst rb)
    else
      do rb <- geval (false :: path) st b; do ra <- geval (true :: path) (snd rb) a; bin2 g (snd ra) (fst ra) (fst rb)
  end.
End GEval.

Fixpoint gden (e : gexpr) (env : nat -> T) : T :=
  match e with GVar i | GMove i => env i | GUn f e => f (gden e env) | GBin g a b => g (gden a env) (gden b env) end.
Fixpoint gocc (i : nat) (e : gexpr) : nat :=
  match e with GVar j | GMove j => if i =? j then 1 else 0 | GUn _ e => gocc i e | GBin _ a b => gocc i a + gocc i b end.
Fixpoint gshape (st : store T) (e : gexpr) : option nat :=
  match e with
  | GVar i | GMove i => Some (length (lookup st i))
  | GUn _ e => gshape st e
  | GBin _ a b => match gshape st a, gshape st b with Some n, Some m => if n =? m then Some n else None | _, _ => None end
  end.
Fixpoint gcons (st : store T) (e : gexpr) (i : nat) : Prop :=
  match e with
  | GVar _ => False
  | GMove j => i = j
  | GUn _ e => gcons st e i \/ (match e with GVar j => i = j /\ const_at st j = false | _ => False end)
  | GBin _ a b => gcons st a i \/ gcons st b i
  end.

Lemma nth_error_upd (A : Type) (x : A) : forall l i j, i < length l -> nth_error (upd l i x) j = if j =? i then Some x else nth_error l j.
Proof. induction l as [|y l IH]; intros [|i] [|j] H; simpl in *; try lia; auto. apply IH. lia. Qed.
Lemma clobber_other st i l j : j <> i -> nth_error (@clobber T st i l) j = nth_error st j.
Proof.
  intros H. unfold clobber. destruct (nth_error st i) eqn:E; [|reflexivity]. rewrite nth_error_upd by (apply nth_error_Some; congruence).
  destruct (Nat.eqb_spec j i); [contradiction|reflexivity].
Qed.
Lemma clobber_const st i l j : const_at (@clobber T st i l) j = const_at st j.
Proof.
  unfold const_at, clobber. destruct (nth_error st i) as [v|] eqn:E; [|reflexivity]. rewrite nth_error_upd by (apply nth_error_Some; congruence).
  destruct (Nat.eqb_spec j i) as [-> |]; [|reflexivity]. rewrite E. reflexivity.
Qed.

Lemma lookup_eq st st' i : nth_error st' i = nth_error st i -> lookup (T := T) st' i = lookup st i.
Proof. unfold lookup. now intros ->. Qed.
Lemma shape_ext e : forall st st', (forall i, 0 < gocc i e -> nth_error st' i = nth_error st i) -> gshape st' e = gshape st e.
Proof.
  induction e as [i|i|f e IH|g a IHa b IHb]; intros st st' H; cbn [gshape].
  1, 2: (rewrite (lookup_eq st st' i); [reflexivity|]; apply H; cbn [gocc]; rewrite Nat.eqb_refl; lia).
  - apply IH. exact H.
  - rewrite (IHa st st'), (IHb st st'); [reflexivity| |]; intros i Hi; apply H; cbn [gocc]; lia.
Qed.
Lemma den_ext e : forall env env', (forall i, 0 < gocc i e -> env' i = env i) -> gden e env' = gden e env.
Proof.
  induction e as [i|i|f e IH|g a IHa b IHb]; intros env env' H; cbn [gden].
  1, 2: (apply H; cbn [gocc]; rewrite Nat.eqb_refl; lia).
  - f_equal. apply IH. exact H.
  - f_equal; [apply IHa|apply IHb]; intros i Hi; apply H; cbn [gocc]; lia.
Qed.
Lemma cons_occ e : forall st i, gcons st e i -> 0 < gocc i e.
Proof.
  induction e as [j|j|f e IH|g a IHa b IHb]; intros st i H; cbn [gcons gocc] in *.
  - contradiction.
  - subst. rewrite Nat.eqb_refl. lia.
  - destruct H as [H|H]; [eauto|]. destruct e; try contradiction. destruct H as [-> _]. cbn [gocc]. rewrite Nat.eqb_refl. lia.
  - destruct H as [H|H]; [apply IHa in H|apply IHb in H]; lia.
Qed.
Lemma cons_ext e : forall st st', (forall i, const_at st' i = const_at st i) -> forall i, gcons st' e i <-> gcons st e i.
Proof.
  induction e as [j|j|f e IH|g a IHa b IHb]; intros st st' H i; cbn [gcons]; [tauto|tauto| |].
  - rewrite (IH st st' H). destruct e; try tauto. rewrite H. tauto.
  - rewrite (IHa st st' H), (IHb st st' H). tauto.
Qed.

Definition column (st : store T) (k i : nat) : T := nth k (lookup st i) zero.
Definition elems (st : store T) (e : gexpr) (n : nat) : list T := map (fun k => gden e (column st k)) (seq 0 n).

Lemma transform2_elems (g : T -> T -> T) (u v : nat -> T) : forall n s, transform2 g (map u (seq s n)) (map v (seq s n)) = Ok (map (fun k => g (u k) (v k)) (seq s n)).
Proof. induction n as [|n IH]; intros s; cbn [seq map transform2]; [reflexivity|]. now rewrite IH. Qed.
Lemma list_elems (l : list T) : map (fun k => nth k l zero) (seq 0 (length l)) = l.
Proof.
  apply nth_ext with (d := zero) (d' := zero); rewrite map_length, seq_length; [reflexivity|]. intros k Hk.
  rewrite (nth_indep _ zero ((fun k => nth k l zero) 0)) by (rewrite map_length, seq_length; lia).
  rewrite (map_nth (fun k => nth k l zero) (seq 0 (length l)) 0 k), seq_nth by lia. reflexivity.
Qed.

(** what evaluation of a linear expression does *)
Definition good (st : store T) (e : gexpr) (r : outcome (value T * store T)) : Prop :=
  match gshape st e with
  | None => r = RequireFail
  | Some n => exists v st', r = Ok (v, st') /\ read st' v = elems st e n /\
      (forall i, ~ gcons st e i -> nth_error st' i = nth_error st i) /\ (forall i, const_at st' i = const_at st i) /\
      (forall x i, v = Ref T x i -> st' = st /\ e = (if x then GMove i else GVar i))
  end.
Lemma elems_ext st st' e n : (forall i, 0 < gocc i e -> nth_error st' i = nth_error st i) -> elems st' e n = elems st e n.
Proof. intros H. unfold elems. apply map_ext. intros k. apply den_ext. intros i Hi. unfold column. rewrite (lookup_eq st st' i); auto. Qed.
Lemma elems_length st e n : length (elems st e n) = n.
Proof. unfold elems. now rewrite map_length, seq_length. Qed.

Lemma bin_good (g : T -> T -> T) st st2 (a b : gexpr) (v1 v2 : value T) n m :
  (forall i, gcons st (GBin g a b) i -> gocc i (GBin g a b) = 1) ->
  gshape st a = Some n -> gshape st b = Some m ->
  read st2 v1 = elems st a n -> read st2 v2 = elems st b m ->
  (forall i, ~ gcons st (GBin g a b) i -> nth_error st2 i = nth_error st i) -> (forall i, const_at st2 i = const_at st i) ->
  (forall i, v1 = Ref T true i -> a = GMove i) -> (forall i, v2 = Ref T true i -> b = GMove i) ->
  good st (GBin g a b) (bin2 g st2 v1 v2).
Proof.
  intros L Ha Hb R1 R2 N C M1 M2. unfold good. cbn [gshape]. rewrite Ha, Hb. unfold bin2, require. rewrite R1, R2, !elems_length.
  destruct (Nat.eqb_spec n m) as [-> |]; [|reflexivity]. unfold elems at 1 2. rewrite transform2_elems. cbn [bind].
  set (r := map _ _). set (st' := match v1 with Ref _ _ _ => _ | Tmp _ => _ end). exists (Tmp r), st'. split; [reflexivity|]. split; [reflexivity|]. split; [|split].
  - intros i Hi. rewrite <- (N i Hi). subst st'.
    destruct v1 as [[|] i1|l1], v2 as [[|] i2|l2]; try reflexivity; apply clobber_other; intros ->; apply Hi; cbn [gcons];
      solve [left; rewrite (M1 _ eq_refl); reflexivity|right; rewrite (M2 _ eq_refl); reflexivity].
  - intros i. rewrite <- (C i). subst st'. destruct v1 as [[|] i1|l1], v2 as [[|] i2|l2]; try reflexivity; apply clobber_const.
  - discriminate.
Qed.

Theorem geval_good ord : forall e path st, (forall i, gcons st e i -> gocc i e = 1) -> good st e (geval ord path st e).
Proof.
  induction e as [i|i|f e IH|g a IHa b IHb]; intros path st L.
  1, 2: (unfold good; cbn [gshape geval]; do 2 eexists; split; [reflexivity|];
    split; [unfold elems; cbn [gden read]; unfold column; now rewrite list_elems|]; split; [reflexivity|]; split; [reflexivity|];
    intros x j E; injection E as <- <-; auto).
  - specialize (IH (true :: path) st). cbn [geval]. unfold good in *. cbn [gshape].
    assert (L' : forall i, gcons st e i -> gocc i e = 1). { intros i Hi. apply (L i). left. exact Hi. }
    specialize (IH L'). destruct (gshape st e) as [n|]; [|now rewrite IH].
    destruct IH as (v & st' & E & R & N & C & V). rewrite E. cbn [bind fst snd]. unfold map1. rewrite R, transform1_map.
    assert (El : map f (elems st e n) = elems st (GUn f e) n) by (unfold elems; rewrite map_map; reflexivity). rewrite El.
    assert (N' : forall i, ~ gcons st (GUn f e) i -> nth_error st' i = nth_error st i). { intros i Hi. apply N. intros Hc. apply Hi. left. exact Hc. }
    destruct v as [[|] i|l].
    + do 2 eexists. split; [reflexivity|]. split; [reflexivity|]. destruct (V true i eq_refl) as [-> Ee]. split; [|split; [|discriminate]].
      * intros j Hj. apply clobber_other. intros ->. apply Hj. left. rewrite Ee. reflexivity.
      * intros j. apply clobber_const.
    + destruct (V false i eq_refl) as [-> Ee]. destruct (const_at st i) eqn:Ec.
      * do 2 eexists. split; [reflexivity|]. split; [reflexivity|]. split; [exact N'|]. split; [reflexivity|discriminate].
      * do 2 eexists. split; [reflexivity|]. split; [reflexivity|]. split; [|split; [|discriminate]].
        -- intros j Hj. apply clobber_other. intros ->. apply Hj. right. rewrite Ee. auto.
        -- intros j. apply clobber_const.
    + do 2 eexists. split; [reflexivity|]. split; [reflexivity|]. split; [exact N'|]. split; [exact C|discriminate].
  - assert (La : forall i, gcons st a i -> gocc i a = 1 /\ gocc i b = 0).
    { intros i Hi. pose proof (cons_occ _ _ _ Hi). specialize (L i (or_introl Hi)). cbn [gocc] in L. lia. }
    assert (Lb : forall i, gcons st b i -> gocc i b = 1 /\ gocc i a = 0).
    { intros i Hi. pose proof (cons_occ _ _ _ Hi). specialize (L i (or_intror Hi)). cbn [gocc] in L. lia. }
    cbn [geval]. destruct (ord path).
    + pose proof (IHa (true :: path) st (fun i Hi => proj1 (La i Hi))) as Ga. unfold good in Ga. destruct (gshape st a) as [n|] eqn:Sa.
      2:{ rewrite Ga. unfold good. cbn [gshape]. rewrite Sa. reflexivity. }
      destruct Ga as (v1 & st1 & E1 & R1 & N1 & C1 & V1). rewrite E1. cbn [bind fst snd].
      assert (X : forall i, 0 < gocc i b -> nth_error st1 i = nth_error st i).
      { intros i Hi. apply N1. intros Hc. destruct (La i Hc). lia. }
      assert (Lb' : forall i, gcons st1 b i -> gocc i b = 1). { intros i Hi. rewrite (cons_ext b st st1 C1) in Hi. apply Lb. exact Hi. }
      pose proof (IHb (false :: path) st1 Lb') as Gb. unfold good in Gb. rewrite (shape_ext b st st1 X) in Gb. destruct (gshape st b) as [m|] eqn:Sb.
      2:{ rewrite Gb. unfold good. cbn [gshape]. rewrite Sa, Sb. reflexivity. }
      destruct Gb as (v2 & st2 & E2 & R2 & N2 & C2 & V2). rewrite E2. cbn [bind fst snd].
      apply bin_good with (n := n) (m := m); auto.
      * rewrite <- R1. destruct v1 as [x i|l]; [|reflexivity]. cbn [read]. apply lookup_eq. apply N2. rewrite (cons_ext b st st1 C1). intros Hc.
        destruct (Lb i Hc) as [_ Z]. destruct (V1 x i eq_refl) as [_ ->]. destruct x; cbn [gocc] in Z; rewrite Nat.eqb_refl in Z; discriminate.
      * rewrite R2. apply elems_ext. exact X.
      * intros i Hi. rewrite N2; [apply N1|]; [|rewrite (cons_ext b st st1 C1)]; intros Hc; apply Hi; cbn [gcons]; auto.
      * intros i. rewrite C2. apply C1.
      * intros i Hv. destruct (V1 true i Hv) as [_ ->]. reflexivity.
      * intros i Hv. destruct (V2 true i Hv) as [_ ->]. reflexivity.
    + pose proof (IHb (false :: path) st (fun i Hi => proj1 (Lb i Hi))) as Gb. unfold good in Gb. destruct (gshape st b) as [m|] eqn:Sb.
      2:{ rewrite Gb. unfold good. cbn [gshape]. rewrite Sb. destruct (gshape st a); reflexivity. }
      destruct Gb as (v2 & st1 & E1 & R1 & N1 & C1 & V1). rewrite E1. cbn [bind fst snd].
      assert (X : forall i, 0 < gocc i a -> nth_error st1 i = nth_error st i).
      { intros i Hi. apply N1. intros Hc. destruct (Lb i Hc). lia. }
      assert (La' : forall i, gcons st1 a i -> gocc i a = 1). { intros i Hi. rewrite (cons_ext a st st1 C1) in Hi. apply La. exact Hi. }
      pose proof (IHa (true :: path) st1 La') as Ga. unfold good in Ga. rewrite (shape_ext a st st1 X) in Ga. destruct (gshape st a) as [n|] eqn:Sa.
      2:{ rewrite Ga. unfold good. cbn [gshape]. rewrite Sa. reflexivity. }
      destruct Ga as (v1 & st2 & E2 & R2 & N2 & C2 & V2). rewrite E2. cbn [bind fst snd].
      apply bin_good with (n := n) (m := m); auto.
      * rewrite R2. apply elems_ext. exact X.
      * rewrite <- R1. destruct v2 as [x i|l]; [|reflexivity]. cbn [read]. apply lookup_eq. apply N2. rewrite (cons_ext a st st1 C1). intros Hc.
        destruct (La i Hc) as [_ Z]. destruct (V1 x i eq_refl) as [_ ->]. destruct x; cbn [gocc] in Z; rewrite Nat.eqb_refl in Z; discriminate.
      * intros i Hi. rewrite N2; [apply N1|]; [|rewrite (cons_ext a st st1 C1)]; intros Hc; apply Hi; cbn [gcons]; auto.
      * intros i. rewrite C2. apply C1.
      * intros i Hv. destruct (V2 true i Hv) as [_ ->]. reflexivity.
      * intros i Hv. destruct (V1 true i Hv) as [_ ->]. reflexivity.
Qed.
End Facts.
