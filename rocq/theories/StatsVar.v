(** Mean, variance and covariance of doubles with NaNs; complex covariance. *)
From Coq Require Import ZArith Field Permutation.
From Verif Require Import Base Functional FunctionalProofs Spec Numeric NumericProofs NumericFacts BaseFl FlFacts Equal Stats StatsOrder StatsMoments.
From Coq Require Import Lqa.
Open Scope nat_scope.

Definition ffn (n : nat) : fl := Fin (qn n).
Definition ffz (z : Z) : fl := Fin (qz z).
Definition fmean := mean f0 NaN fadd fdiv ffn false.
Definition fmean_filter := mean_filter f0 NaN fadd fdiv ffn false.
Definition faverage := average f0 NaN fadd fmul fdiv false.
Definition fcov_filter := covariance_filter f0 f1 NaN PInf fadd fsub fmul fdiv (fun x => x) ffn ffz false.
Definition fcovariance := covariance f0 f1 NaN PInf fadd fsub fmul fdiv (fun x => x) ffn ffz false.
Definition fvar_filter := var_filter f0 f1 NaN PInf fadd fsub fmul fdiv (fun x => x) ffn ffz false (fun x => x).
Definition fvar := var f0 f1 NaN PInf fadd fsub fmul fdiv (fun x => x) ffn ffz false (fun x => x).
Definition fmoment := moment f0 f1 NaN PInf fadd fsub fmul fdiv (fun x => x) ffn ffz false (fun x => x).
Definition fcovmat := cov f0 f1 NaN PInf fadd fsub fmul fdiv (fun x => x) ffn ffz false (fun x => x).

(** textbook formulas on rationals *)
Definition qmean (x : list Qc) : Qc := (qsum x / qn (length x))%Qc.
Definition qcodev (l : list (Qc * Qc)) : Qc :=
  qsum (map (fun p => (fst p - qmean (map fst l)) * (snd p - qmean (map snd l)))%Qc l).

Lemma qsum_bigop l : bigop Qcplus 0%Qc l = qsum l.
Proof. induction l as [|x l IH]; simpl; [reflexivity|]. now rewrite IH. Qed.
Definition unfin (x : fl) : Qc := match x with Fin q => q | _ => 0%Qc end.
Definition is_fin (x : fl) : Prop := exists q, x = Fin q.
Lemma unfin_fin l : Forall is_fin l -> l = map Fin (map unfin l).
Proof. induction 1 as [|x l [q ->] _ IH]; simpl; [reflexivity|]. now rewrite <- IH. Qed.

Lemma fmean_filter_sum a p : a <> [] ->
  fmean_filter a p = fdiv (bigop fadd f0 (filter p a)) (ffn (length (filter p a))).
Proof.
  intros Ha. unfold fmean_filter, mean_filter. destruct (Nat.eqb_spec (length a) 0) as [E|_]; [destruct a; simpl in E; congruence|].
  unfold sum_filter. rewrite filter_reduce_associative_spec; auto using fadd_assoc, fadd_0_l, fadd_0_r.
  f_equal. apply fold_left_bigop; auto using fadd_assoc, fadd_0_l, fadd_0_r.
Qed.
Lemma fmean_nil : fmean [] = NaN. Proof. reflexivity. Qed.
Lemma fmean_filter_eq a p : fmean_filter a p = fmean (filter p a).
Proof.
  destruct a as [|x r]; [reflexivity|]. rewrite fmean_filter_sum by discriminate.
  destruct (filter p (x :: r)) as [|y l] eqn:E.
  - simpl. reflexivity.
  - change fmean with (fun a => fmean_filter a f_all). cbv beta. rewrite fmean_filter_sum by discriminate. now rewrite filter_all.
Qed.
Lemma fdiv_fin x y : y <> 0%Qc -> fdiv (Fin x) (Fin y) = Fin (x / y)%Qc.
Proof. intros H. simpl. destruct (qeqb_spec y 0); [congruence|reflexivity]. Qed.
Lemma fmean_fin x : x <> [] -> fmean (map Fin x) = Fin (qmean x).
Proof.
  intros Hx. change fmean with (fun a => fmean_filter a f_all). cbv beta.
  rewrite fmean_filter_sum by (destruct x; simpl; congruence). rewrite filter_all, bigop_fin_add, map_length, qsum_bigop.
  apply fdiv_fin, qn_neq0. destruct x; simpl; congruence.
Qed.
Lemma fmean_nan a : In NaN a -> fmean a = NaN.
Proof.
  intros H. change fmean with (fun a => fmean_filter a f_all). cbv beta.
  rewrite fmean_filter_sum by (intros ->; contradiction). rewrite filter_all, (bigop_nan_add a H). reflexivity.
Qed.

Lemma qsum_le x m : (forall v, In v x -> (v <= m)%Qc) -> (qsum x <= qn (length x) * m)%Qc.
Proof.
  induction x as [|y x IH]; intros H; simpl.
  - change (qn 0) with 0%Qc. rewrite Qcmult_0_l. apply Qcle_refl.
  - rewrite qn_S. assert (A := H y (or_introl eq_refl)). assert (B := IH (fun v Hv => H v (or_intror Hv))). qc_lra.
Qed.
Lemma qsum_ge x m : (forall v, In v x -> (m <= v)%Qc) -> (qn (length x) * m <= qsum x)%Qc.
Proof.
  induction x as [|y x IH]; intros H; simpl.
  - change (qn 0) with 0%Qc. rewrite Qcmult_0_l. apply Qcle_refl.
  - rewrite qn_S. assert (A := H y (or_introl eq_refl)). assert (B := IH (fun v Hv => H v (or_intror Hv))). qc_lra.
Qed.
Lemma qn_pos n : n <> 0 -> (0 < qn n)%Qc.
Proof. intros H. change 0%Qc with (qn 0). rewrite <- qn_lt. lia. Qed.
Lemma Qcdiv_le_l x y n : (0 < n)%Qc -> (x <= n * y)%Qc -> (x / n <= y)%Qc.
Proof.
  intros Hn H. assert (I := Qcinv_pos n Hn). assert (E : (x / n = x * / n)%Qc) by reflexivity.
  assert (F : (n * / n = 1)%Qc) by (apply Qc_mul_inv; intros ->; qc_lra).
  rewrite E. replace y with ((n * y) * / n)%Qc by (transitivity ((n * / n) * y)%Qc; [ring|rewrite F; ring]).
  apply Qcmult_le_compat_r; [exact H|apply Qclt_le_weak, I].
Qed.
Lemma Qcdiv_le_r x y n : (0 < n)%Qc -> (n * y <= x)%Qc -> (y <= x / n)%Qc.
Proof.
  intros Hn H. assert (I := Qcinv_pos n Hn). assert (E : (x / n = x * / n)%Qc) by reflexivity.
  assert (F : (n * / n = 1)%Qc) by (apply Qc_mul_inv; intros ->; qc_lra).
  rewrite E. replace y with ((n * y) * / n)%Qc by (transitivity ((n * / n) * y)%Qc; [ring|rewrite F; ring]).
  apply Qcmult_le_compat_r; [exact H|apply Qclt_le_weak, I].
Qed.
Lemma qmean_bounds x lo hi : x <> [] -> (forall v, In v x -> (lo <= v)%Qc /\ (v <= hi)%Qc) ->
  (lo <= qmean x)%Qc /\ (qmean x <= hi)%Qc.
Proof.
  intros Hx H. assert (N : (0 < qn (length x))%Qc) by (apply qn_pos; destruct x; simpl; congruence). unfold qmean. split.
  - apply Qcdiv_le_r; [exact N|]. apply qsum_ge. intros v Hv. now apply H.
  - apply Qcdiv_le_l; [exact N|]. apply qsum_le. intros v Hv. now apply H.
Qed.

(** *** average *)
Lemma finner x w : length x = length w ->
  inner f0 fadd fmul (map Fin x) (map Fin w) = Ok (Fin (qsum (map (fun p => fst p * snd p)%Qc (combine x w)))).
Proof.
  intros H. unfold inner, inner_op, pairwise_accumulate2, require. rewrite !map_length, (proj2 (Nat.eqb_eq _ _) H). f_equal.
  assert (E : combine (map Fin x) (map Fin w) = map (fun q => (Fin (fst q), Fin (snd q))) (combine x w)).
  { clear H. revert w. induction x as [|u x IH]; intros [|v w]; simpl; try reflexivity. now rewrite IH. }
  rewrite E. generalize (combine x w) as l. clear.
  assert (H : forall l : list (fl * fl), pairwise_accumulate PW_BLOCKSIZE
     (fun blk => fold_left (fun res xy => fadd res (fmul (fst xy) (snd xy))) blk f0) fadd l =
     bigop fadd f0 (map (fun xy => fmul (fst xy) (snd xy)) l)).
  { intros l. apply (pairwise_ind PW_BLOCKSIZE _ _ (fun l r => r = bigop fadd f0 (map (fun xy => fmul (fst xy) (snd xy)) l))).
    - unfold PW_BLOCKSIZE; lia.
    - intros a _. rewrite <- (fold_left_bigop fadd f0); auto using fadd_assoc, fadd_0_l, fadd_0_r.
      generalize f0. induction a as [|q a IH]; intros z; simpl; [reflexivity|]. apply IH.
    - intros a b ra rb _ _ -> ->. rewrite map_app. symmetry. apply bigop_app; auto using fadd_assoc, fadd_0_l, fadd_0_r. }
  intros l. rewrite H, map_map. cbn [fst snd]. 
  rewrite (map_ext _ (fun q => Fin (fst q * snd q)%Qc)) by reflexivity.
  rewrite <- (map_map (fun q => (fst q * snd q)%Qc) Fin), bigop_fin_add, qsum_bigop. reflexivity.
Qed.
Lemma faverage_fin x w : length x = length w -> x <> [] -> qsum w <> 0%Qc ->
  faverage (map Fin x) (map Fin w) = Ok (Fin (qsum (map (fun p => fst p * snd p)%Qc (combine x w)) / qsum w)%Qc).
Proof.
  intros H Hx Hw. unfold faverage, average. rewrite !map_length, (proj2 (Nat.eqb_eq _ _) H).
  destruct (Nat.eqb_spec (length x) 0) as [E|_]; [destruct x; simpl in E; congruence|]. cbn [orb negb].
  rewrite finner by exact H. cbn [bind]. destruct (sum_prod_fin w) as [-> _]. rewrite qsum_bigop. now rewrite fdiv_fin.
Qed.
Lemma faverage_const x c : x <> [] -> c <> 0%Qc -> faverage (map Fin x) (map Fin (repeat c (length x))) = Ok (fmean (map Fin x)).
Proof.
  intros Hx Hc. rewrite fmean_fin by exact Hx.
  assert (Hs : qsum (repeat c (length x)) = (qn (length x) * c)%Qc).
  { generalize (length x). induction n as [|n IH]; simpl; [change (qn 0) with 0%Qc; ring|]. rewrite IH, qn_S. ring. }
  assert (N : qn (length x) <> 0%Qc) by (apply qn_neq0; destruct x; simpl; congruence).
  assert (Hn : (qn (length x) * c)%Qc <> 0%Qc).
  { intros E. apply Qcmult_integral in E. tauto. }
  rewrite faverage_fin; [|now rewrite repeat_length|exact Hx|now rewrite Hs].
  apply f_equal, f_equal. rewrite Hs. unfold qmean.
  assert (E : qsum (map (fun p => (fst p * snd p)%Qc) (combine x (repeat c (length x)))) = (qsum x * c)%Qc).
  { clear. induction x as [|u x IH]; simpl; [ring|]. rewrite IH. ring. }
  rewrite E. field. split; assumption.
Qed.

(** *** The leaf blocks of the pairwise recursion *)
Definition leaves {T} (l : list T) : list (list T) := pairwise_accumulate 64 (fun b => [b]) (@app (list T)) l.
Lemma leaves_small {T} (l : list T) : length l <= 64 -> leaves l = [l].
Proof. intros H. unfold leaves. rewrite pairwise_unfold by lia. now rewrite (proj2 (Nat.leb_le _ _) H). Qed.
Lemma split_half {T} (a b : list T) : length a <= length b <= S (length a) -> length (a ++ b) / 2 = length a.
Proof. intros H. rewrite app_length. symmetry. apply (Nat.div_unique _ 2 _ (length b - length a)); lia. Qed.
Lemma leaves_app {T} (a b : list T) : 64 < length a + length b -> length a <= length b <= S (length a) ->
  leaves (a ++ b) = leaves a ++ leaves b.
Proof.
  intros HB H. unfold leaves at 1. rewrite pairwise_unfold by lia. rewrite split_half by exact H.
  assert (L : (length (a ++ b) <=? 64) = false) by (rewrite app_length; apply Nat.leb_gt; lia). rewrite L.
  rewrite firstn_app, Nat.sub_diag, firstn_all, firstn_O, app_nil_r.
  rewrite skipn_app, Nat.sub_diag, skipn_all. reflexivity.
Qed.
(** every leaf of a list of more than 64 elements is a contiguous piece of at least 32 elements *)
Lemma leaves_segments {T} (l : list T) : forall blk, In blk (leaves l) ->
  exists u v, l = u ++ blk ++ v /\ (64 < length l -> 32 <= length blk) /\ (length l <= 64 -> blk = l).
Proof.
  unfold leaves.
  apply (pairwise_ind 64 (fun b : list T => [b]) (@app (list T))
    (fun l r => forall blk, In blk r -> exists u v, l = u ++ blk ++ v /\ (64 < length l -> 32 <= length blk) /\ (length l <= 64 -> blk = l))).
  - lia.
  - intros a Ha blk [<-|[]]. exists [], []. rewrite app_nil_r. repeat split; lia.
  - intros a b ra rb HB Hab IHa IHb blk Hin. apply in_app_iff in Hin. rewrite app_length. destruct Hin as [Hin|Hin].
    + destruct (IHa _ Hin) as (u & v & E & H1 & H2). exists u, (v ++ b). split; [rewrite E at 1; now rewrite <- !app_assoc|].
      split; [|lia]. intros _. destruct (le_lt_dec (length a) 64) as [L|L]; [rewrite (H2 L); lia|auto].
    + destruct (IHb _ Hin) as (u & v & E & H1 & H2). exists (a ++ u), v. split; [rewrite E at 1; now rewrite <- !app_assoc|].
      split; [|lia]. intros _. destruct (le_lt_dec (length b) 64) as [L|L]; [rewrite (H2 L); lia|auto].
Qed.
Lemma leaves_map {T U} (f : T -> U) (l : list T) : leaves (map f l) = map (map f) (leaves l).
Proof.
  unfold leaves at 2.
  apply (pairwise_ind 64 (fun b : list T => [b]) (@app (list T)) (fun l r => leaves (map f l) = map (map f) r)).
  - lia.
  - intros a Ha. rewrite leaves_small by (now rewrite map_length). reflexivity.
  - intros a b ra rb HB Hab IHa IHb. rewrite map_app, leaves_app by (rewrite !map_length; lia). now rewrite IHa, IHb, map_app.
Qed.

(** *** Covariance with a filter.  [p] selects; both arrays have the same selected positions; selected values are finite. *)
Section Filtered.
Variable p : fl -> bool.
Definition sel_ok (q : fl * fl) : Prop := p (fst q) = p (snd q) /\ (p (fst q) = true -> is_fin (fst q) /\ is_fin (snd q)).
Definition selected (l : list (fl * fl)) : list (Qc * Qc) :=
  map (fun q => (unfin (fst q), unfin (snd q))) (filter (fun q => p (fst q)) l).
Definition lift_stat (w : list (Qc * Qc)) : fl * fl * fl * nat :=
  (Fin (qmean (map fst w)), Fin (qmean (map snd w)), Fin (qcodev w), length w).
Lemma selected_app a b : selected (a ++ b) = selected a ++ selected b.
Proof. unfold selected. now rewrite filter_app, map_app. Qed.
Lemma filter_fst l : Forall sel_ok l -> filter p (map fst l) = map Fin (map fst (selected l)).
Proof.
  unfold selected. induction 1 as [|[u v] l [E F] _ IH]; [reflexivity|]. simpl in *.
  destruct (p u) eqn:Eu; simpl; [|exact IH]. destruct (F eq_refl) as [[x ->] _]. simpl. now rewrite IH.
Qed.
Lemma filter_snd l : Forall sel_ok l -> filter p (map snd l) = map Fin (map snd (selected l)).
Proof.
  unfold selected. induction 1 as [|[u v] l [E F] _ IH]; [reflexivity|]. simpl in *. rewrite <- E.
  destruct (p u) eqn:Eu; simpl; [|exact IH]. destruct (F eq_refl) as [_ [x ->]]. simpl. now rewrite IH.
Qed.
Lemma fold_sel m1 m2 l : Forall sel_ok l -> forall r c,
  fold_left (fun st xy => if p (fst xy) && p (snd xy)
                          then (fadd (fst st) (fmul (fsub (fst xy) (Fin m1)) (fsub (snd xy) (Fin m2))), S (snd st)) else st) l (Fin r, c) =
  (Fin (r + qsum (map (fun q => (fst q - m1) * (snd q - m2))%Qc (selected l)))%Qc, c + length (selected l)).
Proof.
  unfold selected. induction 1 as [|[u v] l [E F] _ IH]; intros r c; simpl in *.
  - f_equal; [f_equal; ring|lia].
  - rewrite <- E. destruct (p u) eqn:Eu; simpl; [|apply IH]. destruct (F eq_refl) as [[x ->] [y ->]]. simpl.
    rewrite IH. f_equal; [f_equal; simpl; unfold Qcminus; ring|lia].
Qed.
Lemma fold_none m1 m2 l : Forall sel_ok l -> selected l = [] -> forall st,
  fold_left (fun st xy => if p (fst xy) && p (snd xy)
                          then (fadd (fst st) (fmul (fsub (fst xy) m1) (fsub (snd xy) m2)), S (snd st)) else st) l st = st.
Proof.
  unfold selected. induction 1 as [|[u v] l [E F] _ IH]; intros Hs st; simpl in *; [reflexivity|].
  destruct (p u); simpl in *; [discriminate|]. now apply IH.
Qed.
Definition fblock := cov_block f0 NaN fadd fsub fmul fdiv (fun x => x) ffn false p.
Definition fcomb := cov_combine f1 fadd fsub fmul fdiv (fun x => x) ffn.
Lemma fblock_ok l : Forall sel_ok l ->
  fblock l = match selected l with [] => (NaN, NaN, f0, 0) | _ => lift_stat (selected l) end.
Proof.
  intros H. unfold fblock, cov_block.
  change (mean_filter f0 NaN fadd fdiv ffn false) with fmean_filter. rewrite !fmean_filter_eq, filter_fst, filter_snd by exact H.
  destruct (selected l) as [|w0 w] eqn:E.
  - simpl map. rewrite fmean_nil, fold_none by assumption. reflexivity.
  - rewrite !fmean_fin by discriminate. change f0 with (Fin 0%Qc). rewrite fold_sel by exact H. rewrite E.
    unfold lift_stat, qcodev. rewrite Qcplus_0_l. reflexivity.
Qed.
Lemma fcomb_nan1 n1 c1 r2 : fcomb (NaN, NaN, c1, n1) r2 = (NaN, NaN, NaN, n1 + snd r2).
Proof.
  destruct r2 as [[[m21 m22] c2] n2]. unfold fcomb, cov_combine, ffn. cbn [snd].
  assert (A : forall x, fmul x NaN = NaN) by (intros []; reflexivity).
  assert (B : forall x, fadd x NaN = NaN) by (intros []; reflexivity).
  assert (C : forall x, fmul NaN x = NaN) by (intros []; reflexivity).
  assert (D : forall x, fadd NaN x = NaN) by (intros []; reflexivity).
  assert (S : forall x, fsub NaN x = NaN) by (intros []; reflexivity).
  repeat first [rewrite A|rewrite B|rewrite C|rewrite D|rewrite S]. reflexivity.
Qed.
Lemma fcomb_nan2 r1 c2 n2 : fcomb r1 (NaN, NaN, c2, n2) = (NaN, NaN, NaN, snd r1 + n2).
Proof.
  destruct r1 as [[[m11 m12] c1] n1]. unfold fcomb, cov_combine, ffn. cbn [snd].
  assert (A : forall x, fmul x NaN = NaN) by (intros []; reflexivity).
  assert (B : forall x, fadd x NaN = NaN) by (intros []; reflexivity).
  assert (C : forall x, fmul NaN x = NaN) by (intros []; reflexivity).
  assert (S : forall x, fsub x NaN = NaN) by (intros []; reflexivity).
  repeat first [rewrite A|rewrite B|rewrite C|rewrite S]. reflexivity.
Qed.
Lemma qc_field : field_theory 0%Qc 1%Qc Qcplus Qcmult Qcminus Qcopp Qcdiv Qcinv eq.
Proof. exact Qcft. Qed.
Lemma kmean_q x : kmean Qc 0%Qc Qcplus Qcdiv qn x = qmean x.
Proof. unfold kmean, qmean. now rewrite qsum_bigop. Qed.
Lemma kcodev_q l : kcodev Qc 0%Qc Qcplus Qcmult Qcminus Qcdiv (fun x => x) qn l = qcodev l.
Proof. unfold kcodev, qcodev. rewrite qsum_bigop, !kmean_q. reflexivity. Qed.
Lemma fcomb_ok w1 w2 : w1 <> [] -> w2 <> [] -> fcomb (lift_stat w1) (lift_stat w2) = lift_stat (w1 ++ w2).
Proof.
  intros H1 H2.
  pose proof (cov_combine_spec Qc 0%Qc 1%Qc Qcplus Qcmult Qcminus Qcopp Qcdiv Qcinv (fun x => x) qn qc_field
    (fun x y => eq_refl) (fun x y => eq_refl) (fun n => eq_refl) eq_refl eq_refl qn_add qn_neq0 w1 w2 H1 H2) as E.
  rewrite !kmean_q, !kcodev_q in E. unfold lift_stat.
  assert (N : qn (length w1 + length w2) <> 0%Qc) by (apply qn_neq0; destruct w1; simpl in *; [congruence|lia]).
  unfold fcomb, cov_combine, ffn. unfold cov_combine in E. 
  pose proof (f_equal (fun t => fst (fst (fst t))) E) as E1. pose proof (f_equal (fun t => snd (fst (fst t))) E) as E2.
  pose proof (f_equal (fun t => snd (fst t)) E) as E3. cbn [fst snd] in E1, E2, E3. clear E.
  change f1 with (Fin 1%Qc). unfold fsub. cbn [fmul fneg fadd]. rewrite !fdiv_fin by exact N. cbn [fmul fadd].
  rewrite <- E1, <- E2, <- E3, app_length. reflexivity.
Qed.

Definition all_leaves_ok (l : list (fl * fl)) : Prop := forall blk, In blk (leaves l) -> selected blk <> [].
Lemma pairwise_sel l : Forall sel_ok l ->
  (all_leaves_ok l -> pairwise_accumulate 64 fblock fcomb l = lift_stat (selected l)) /\
  (~ all_leaves_ok l -> 64 < length l -> pairwise_accumulate 64 fblock fcomb l = (NaN, NaN, NaN, length (selected l))) /\
  (~ all_leaves_ok l -> length l <= 64 -> pairwise_accumulate 64 fblock fcomb l = (NaN, NaN, f0, 0) /\ selected l = []).
Proof.
  apply (pairwise_ind 64 fblock fcomb (fun l r => Forall sel_ok l ->
    (all_leaves_ok l -> r = lift_stat (selected l)) /\
    (~ all_leaves_ok l -> 64 < length l -> r = (NaN, NaN, NaN, length (selected l))) /\
    (~ all_leaves_ok l -> length l <= 64 -> r = (NaN, NaN, f0, 0) /\ selected l = []))).
  - lia.
  - clear l. intros l Hl Hok. rewrite fblock_ok by exact Hok. unfold all_leaves_ok. rewrite leaves_small by exact Hl.
    split; [|split].
    + intros H. specialize (H l (or_introl eq_refl)). destruct (selected l); [congruence|reflexivity].
    + lia.
    + intros H _. destruct (selected l) eqn:E; [split; reflexivity|]. exfalso. apply H. intros b [<-|[]]. rewrite E. discriminate.
  - clear l. intros a b ra rb HB Hab IHa IHb Hok. apply Forall_app in Hok. destruct Hok as [Ha Hb].
    specialize (IHa Ha). specialize (IHb Hb).
    assert (Hiff : all_leaves_ok (a ++ b) <-> all_leaves_ok a /\ all_leaves_ok b).
    { unfold all_leaves_ok. rewrite leaves_app by assumption. split.
      - intros H; split; intros blk Hin; apply H, in_app_iff; auto.
      - intros [H1 H2] blk Hin. apply in_app_iff in Hin. destruct Hin; auto. }
    assert (Hne : forall c, c = a \/ c = b -> all_leaves_ok c -> selected c <> []).
    { intros c Hc Hal. assert (Hc0 : exists blk, In blk (leaves c)).
      { clear. unfold leaves. apply (pairwise_ind 64 (fun b : list (fl * fl) => [b]) (@app _) (fun l r => exists blk, In blk r)); [lia| |].
        - intros a _. exists a. now left.
        - intros a b x y _ _ [u Hu] _. exists u. apply in_app_iff. now left. }
      destruct Hc0 as [blk Hblk]. destruct (leaves_segments c blk Hblk) as (u & v & E & _). specialize (Hal blk Hblk).
      rewrite E, !selected_app. destruct (selected blk); [congruence|]. intros C. apply app_eq_nil in C. destruct C as [_ C]. discriminate. }
    assert (Dec : forall c, c = a \/ c = b -> all_leaves_ok c \/ ~ all_leaves_ok c).
    { intros c _. unfold all_leaves_ok. generalize (leaves c). clear. intros L. induction L as [|x L IH].
      - left. intros blk [].
      - destruct (selected x) eqn:E.
        + right. intros H. apply (H x); [now left|exact E].
        + destruct IH as [IH|IH]; [left|right].
          * intros blk [<-|H]; [rewrite E; discriminate|now apply IH].
          * intros H. apply IH. intros blk Hb. apply H. now right. }
    split; [|split].
    + intros H. apply Hiff in H. destruct H as [H1 H2]. rewrite (proj1 IHa H1), (proj1 IHb H2).
      rewrite fcomb_ok, selected_app; auto.
    + intros H _. rewrite selected_app, app_length.
      assert (Sh : forall c (rc : fl * fl * fl * nat), (c = a /\ rc = ra) \/ (c = b /\ rc = rb) -> snd rc = length (selected c) /\
                (~ all_leaves_ok c -> exists x, rc = (NaN, NaN, x, length (selected c)))).
      { intros c rc Hc. assert (IH : (all_leaves_ok c -> rc = lift_stat (selected c)) /\
           (~ all_leaves_ok c -> 64 < length c -> rc = (NaN, NaN, NaN, length (selected c))) /\
           (~ all_leaves_ok c -> length c <= 64 -> rc = (NaN, NaN, f0, 0) /\ selected c = [])) by (destruct Hc as [[-> ->]|[-> ->]]; assumption).
        destruct IH as (I1 & I2 & I3).
        destruct (Dec c) as [D|D]; [tauto| |].
        - split; [now rewrite (I1 D)|intros; contradiction].
        - destruct (le_lt_dec (length c) 64) as [L|L].
          + destruct (I3 D L) as [-> ->]. split; [reflexivity|]. intros _. now exists f0.
          + rewrite (I2 D L). split; [reflexivity|]. intros _. now exists NaN. }
      destruct (Sh a ra) as [Na Ba]; [auto|]. destruct (Sh b rb) as [Nb Bb]; [auto|].
      destruct (Dec a) as [Da|Da]; [auto| |].
      * destruct (Dec b) as [Db|Db]; [auto| |].
        -- exfalso. apply H, Hiff. auto.
        -- destruct (Bb Db) as [x ->]. rewrite fcomb_nan2, Na. reflexivity.
      * destruct (Ba Da) as [x ->]. rewrite fcomb_nan1, Nb. reflexivity.
    + rewrite app_length. lia.
Qed.

Lemma fcov_filter_eq ddof a b : length a = length b -> a <> [] ->
  fcov_filter ddof a b p =
  let '(m1, m2, c, n) := pairwise_accumulate 64 fblock fcomb (combine a b) in
  Ok (if (Z.of_nat n - ddof <=? 0)%Z then PInf else fdiv c (ffz (Z.of_nat n - ddof)), n).
Proof.
  intros Hl Ha. unfold fcov_filter, covariance_filter, require. rewrite (proj2 (Nat.eqb_eq _ _) Hl).
  destruct (Nat.eqb_spec (length a) 0) as [E|_]; [destruct a; simpl in E; congruence|].
  unfold pairwise_accumulate2, require. rewrite (proj2 (Nat.eqb_eq _ _) Hl). cbn [bind].
  change (cov_block f0 NaN fadd fsub fmul fdiv (fun x => x) ffn false p) with fblock.
  change (cov_combine f1 fadd fsub fmul fdiv (fun x => x) ffn) with fcomb.
  destruct (pairwise_accumulate 64 fblock fcomb (combine a b)) as [[[m1 m2] c] n].
  destruct (_ <=? 0)%Z; reflexivity.
Qed.
End Filtered.
