(** Facts for C130: data sets that are joined, shifted, rescaled or added (scicpp/core/stats.hpp, models Stats.v and StatsVar.v). *)
From Coq Require Import ZArith Permutation Sorted.
From Verif Require Import Base Functional FunctionalProofs Spec Numeric NumericFacts BaseFl FlFacts Equal Maths Stats StatsOrder
  StatsMoments StatsVar StatsVarFacts StatsQuantile.
From Coq Require Import Lqa.
Open Scope nat_scope.

Lemma pair_expand (a b : Qc) l : qsum (map (fun p => (fst p - a) * (snd p - b))%Qc l) =
  (qsum (map (fun p => fst p * snd p) l) - b * qsum (map fst l) - a * qsum (map snd l) + qn (length l) * a * b)%Qc.
Proof. induction l as [|[u v] l IH]; cbn [map qsum fst snd length]; [change (qn 0) with 0%Qc; ring|]. rewrite IH, qn_S. ring. Qed.
Lemma qn_ne {A} (x : list A) : x <> [] -> qn (length x) <> 0%Qc.
Proof. intros H. apply qn_neq0. destruct x; simpl; congruence. Qed.
Definition prods (x y : list Qc) : Qc := qsum (map (fun p => fst p * snd p)%Qc (combine x y)).
Lemma dev_plain x y : length x = length y -> x <> [] -> dev_sum x y = (prods x y - qsum x * qsum y / qn (length x))%Qc.
Proof.
  intros E N. unfold dev_sum, prods. rewrite pair_expand, (combine_fst x y E), combine_length, <- E, Nat.min_id.
  assert (S2 : map snd (combine x y) = y).
  { clear N. revert y E. induction x as [|u x IH]; intros [|v y] E; try discriminate; [reflexivity|]. cbn. now rewrite IH by (now injection E). }
  rewrite S2. unfold qmean. rewrite <- E. pose proof (qn_ne x N). field. exact H.
Qed.
Lemma combine_app {A B} (x x' : list A) (y y' : list B) : length x = length y -> combine (x ++ x') (y ++ y') = combine x y ++ combine x' y'.
Proof. revert y. induction x as [|u x IH]; intros [|v y] E; try discriminate; [reflexivity|]. cbn. now rewrite IH by (now injection E). Qed.
Lemma qsum_affine k c x : qsum (map (fun u => k * u + c)%Qc x) = (k * qsum x + qn (length x) * c)%Qc.
Proof. induction x as [|u x IH]; cbn [map qsum length]; [change (qn 0) with 0%Qc; ring|]. rewrite IH, qn_S. ring. Qed.
Lemma prods_affine k c l d x y : length x = length y ->
  prods (map (fun u => k * u + c)%Qc x) (map (fun v => l * v + d)%Qc y) = (k * l * prods x y + k * d * qsum x + l * c * qsum y + qn (length x) * c * d)%Qc.
Proof.
  revert y. induction x as [|u x IH]; intros [|v y] E; try discriminate; unfold prods in *; cbn [map qsum length combine fst snd]; [change (qn 0) with 0%Qc; ring|].
  rewrite IH, qn_S by (now injection E). ring.
Qed.
Definition addl (x y : list Qc) : list Qc := map (fun p => fst p + snd p)%Qc (combine x y).
Lemma addl_length x y : length x = length y -> length (addl x y) = length x.
Proof. intros E. unfold addl. rewrite map_length, combine_length. lia. Qed.
Lemma qsum_addl x y : length x = length y -> qsum (addl x y) = (qsum x + qsum y)%Qc.
Proof. revert y. induction x as [|u x IH]; intros [|v y] E; try discriminate; unfold addl in *; cbn [combine map qsum fst snd]; [ring|]. rewrite IH by (now injection E). ring. Qed.
Lemma prods_addl x x' y : length x = length x' -> length x = length y -> prods (addl x x') y = (prods x y + prods x' y)%Qc.
Proof.
  revert x' y. induction x as [|u x IH]; intros [|u' x'] [|v y] E E'; try discriminate; unfold prods, addl in *; cbn [combine map qsum fst snd]; [ring|].
  rewrite IH by (first [now injection E | now injection E']). ring.
Qed.
Lemma prods_comm x y : prods x y = prods y x.
Proof. revert y. induction x as [|u x IH]; intros [|v y]; unfold prods in *; cbn [combine map qsum fst snd]; try reflexivity. rewrite IH. ring. Qed.
Lemma ne_map {A B} (f : A -> B) x : x <> [] -> map f x <> [].
Proof. destruct x; cbn; congruence. Qed.
Lemma cov_fin ddof x y : length x = length y -> (ddof < Z.of_nat (length x))%Z -> x <> [] ->
  fcovariance ddof (map Fin x) (map Fin y) = Ok (Fin (dev_sum x y / qz (Z.of_nat (length x) - ddof))%Qc).
Proof.
  intros E D N. destruct (covariance_two_pass ddof x y) as (H & _). rewrite (H E N). unfold cov_value.
  destruct (Z.leb_spec (Z.of_nat (length x) - ddof) 0); [lia|reflexivity].
Qed.
Lemma var_fin ddof x : (ddof < Z.of_nat (length x))%Z -> x <> [] -> fvar ddof (map Fin x) = Ok (Fin (dev_sum x x / qz (Z.of_nat (length x) - ddof))%Qc).
Proof. intros D N. rewrite fvar_covariance. now apply cov_fin. Qed.
Lemma qz_ne z : (0 < z)%Z -> qz z <> 0%Qc.
Proof. intros H E. apply (qz_pos z) in H. rewrite E in H. discriminate. Qed.

Lemma qz_minus a b : (qz a - qz b)%Qc = qz (a - b).
Proof. unfold Z.sub. rewrite qz_add, qz_opp. reflexivity. Qed.
Lemma join_dev x1 y1 x2 y2 : length x1 = length y1 -> length x2 = length y2 -> x1 <> [] -> x2 <> [] ->
  dev_sum (x1 ++ x2) (y1 ++ y2) =
  (dev_sum x1 y1 + dev_sum x2 y2 + qn (length x1) * qn (length x2) / qn (length x1 + length x2) * (qmean x1 - qmean x2) * (qmean y1 - qmean y2))%Qc.
Proof.
  intros E1 E2 N1 N2. rewrite !dev_plain; try assumption; [|rewrite !app_length; lia|destruct x1; cbn; congruence].
  assert (P : prods (x1 ++ x2) (y1 ++ y2) = (prods x1 y1 + prods x2 y2)%Qc) by (unfold prods; now rewrite combine_app, map_app, qsum_app).
  rewrite P, !qsum_app, app_length. unfold qmean. rewrite <- E1, <- E2.
  pose proof (qn_ne x1 N1) as A. pose proof (qn_ne x2 N2) as B. assert (C : qn (length x1 + length x2) <> 0%Qc) by (rewrite <- app_length; apply qn_ne; destruct x1; cbn; congruence).
  rewrite qn_add in *. field. auto.
Qed.

Section Order.
Variables (k c : Qc).
Let g (u : Qc) : Qc := (k * u + c)%Qc.
Lemma sorted_up s : (0 < k)%Qc -> StronglySorted fleP (map Fin s) -> StronglySorted fleP (map Fin (map g s)).
Proof.
  intros Hk. induction s as [|x s IH]; cbn [map]; intros H; [constructor|]. inversion H; subst. constructor; [now apply IH|].
  rewrite Forall_forall in *. intros y Hy. apply in_map_iff in Hy. destruct Hy as (z & <- & Hz). apply in_map_iff in Hz. destruct Hz as (w & <- & Hw).
  specialize (H3 (Fin w) (in_map _ _ _ Hw)). unfold fleP in *. rewrite fle_fin in *. apply qleb_le in H3. apply qleb_le. unfold g. qc_nra.
Qed.
Lemma sorted_snoc s x : StronglySorted fleP (map Fin s) -> (forall y, In y s -> (y <= x)%Qc) -> StronglySorted fleP (map Fin (s ++ [x])).
Proof.
  induction s as [|y s IH]; cbn [map app]; intros H Hx; [repeat constructor|]. inversion H; subst. constructor; [apply IH; [assumption|intros; apply Hx; now right]|].
  rewrite Forall_forall in *. intros z Hz. apply in_map_iff in Hz. destruct Hz as (w & <- & Hw). apply in_app_iff in Hw. destruct Hw as [Hw|[<-|[]]]; [apply H3, in_map, Hw|].
  unfold fleP. rewrite fle_fin. apply qleb_le, Hx. now left.
Qed.
Lemma sorted_down s : (k < 0)%Qc -> StronglySorted fleP (map Fin s) -> StronglySorted fleP (map Fin (rev (map g s))).
Proof.
  intros Hk. induction s as [|x s IH]; intros H; [constructor|]. inversion H; subst. cbn [map rev]. apply sorted_snoc; [now apply IH|].
  intros y Hy. apply in_rev in Hy. apply in_map_iff in Hy. destruct Hy as (z & <- & Hz). rewrite Forall_forall in H3.
  specialize (H3 (Fin z) (in_map _ _ _ Hz)). unfold fleP in H3. rewrite fle_fin in H3. apply qleb_le in H3. unfold g. qc_nra.
Qed.
End Order.
