(** Variance, covariance, moments: user-level facts *)
From Coq Require Import ZArith Field Permutation.
From Verif Require Import Base Functional FunctionalProofs Spec Numeric NumericProofs NumericFacts BaseFl FlFacts Equal Maths Stats StatsOrder StatsMoments StatsVar.
From Coq Require Import Lqa.
Open Scope nat_scope.

(** *** specification: sum of products of deviations *)
Definition dev_sum (x y : list Qc) : Qc :=
  qsum (map (fun p => (fst p - qmean x) * (snd p - qmean y))%Qc (combine x y)).
Definition cov_value (ddof : Z) (x y : list Qc) : fl :=
  if (Z.of_nat (length x) - ddof <=? 0)%Z then PInf else Fin (dev_sum x y / qz (Z.of_nat (length x) - ddof))%Qc.

Lemma combine_fst {A B} (x : list A) : forall y : list B, length x = length y -> map fst (combine x y) = x.
Proof. induction x as [|u x IH]; intros [|v y] H; simpl in *; try discriminate; [reflexivity|]. now rewrite IH by lia. Qed.
Lemma combine_snd {A B} (x : list A) : forall y : list B, length x = length y -> map snd (combine x y) = y.
Proof. induction x as [|u x IH]; intros [|v y] H; simpl in *; try discriminate; [reflexivity|]. now rewrite IH by lia. Qed.
Lemma qcodev_combine x y : length x = length y -> qcodev (combine x y) = dev_sum x y.
Proof. intros H. unfold qcodev, dev_sum. now rewrite combine_fst, combine_snd. Qed.

(** selection by a predicate *)
Definition same_selection (p : fl -> bool) (a b : list fl) : Prop :=
  length a = length b /\ forall i u v, nth_error a i = Some u -> nth_error b i = Some v -> p u = p v.
Definition finite_selection (p : fl -> bool) (a : list fl) : Prop := forall u, In u a -> p u = true -> exists q, u = Fin q.
(** a short array with a selected element, or a selected element among any 32 consecutive ones *)
Definition dense (p : fl -> bool) (a : list fl) : Prop :=
  (length a <= 64 /\ exists u, In u a /\ p u = true) \/
  (32 <= length a /\ forall i, i + 32 <= length a -> exists u, In u (firstn 32 (skipn i a)) /\ p u = true).

Lemma same_selection_ok p a : forall b, same_selection p a b -> finite_selection p a -> finite_selection p b ->
  Forall (sel_ok p) (combine a b).
Proof.
  induction a as [|u a IH]; intros [|v b] [Hl Hs] Ha Hb; simpl in *; try discriminate; [constructor|]. constructor.
  - assert (E : p u = p v) by (apply (Hs 0); reflexivity). split; [exact E|]. simpl. intros Hp. split.
    + apply Ha; [now left|exact Hp].
    + apply Hb; [now left|congruence].
  - apply IH.
    + split; [lia|]. intros i x y Hx Hy. now apply (Hs (S i)).
    + intros x Hx. apply Ha. now right.
    + intros x Hx. apply Hb. now right.
Qed.
Lemma selected_fst p a b : same_selection p a b -> finite_selection p a -> finite_selection p b ->
  filter p a = map Fin (map fst (selected p (combine a b))) /\ filter p b = map Fin (map snd (selected p (combine a b))).
Proof.
  intros H Ha Hb. pose proof (same_selection_ok p a b H Ha Hb) as Ok. destruct H as [Hl _].
  rewrite <- filter_fst, <- filter_snd by exact Ok. now rewrite combine_fst, combine_snd.
Qed.
Lemma combine_fst_snd {A B} (l : list (A * B)) : combine (map fst l) (map snd l) = l.
Proof. induction l as [|[u v] l IH]; simpl; [reflexivity|]. now rewrite IH. Qed.

Lemma cov_of_selected p ddof a b : same_selection p a b -> finite_selection p a -> finite_selection p b ->
  all_leaves_ok p (combine a b) ->
  let w := selected p (combine a b) in
  w <> [] /\ fcov_filter ddof a b p = Ok (cov_value ddof (map fst w) (map snd w), length w).
Proof.
  intros H Ha Hb Hal w. pose proof (same_selection_ok p a b H Ha Hb) as Ok'. destruct H as [Hl _].
  assert (Hw : w <> []).
  { unfold w. intros E. destruct (le_lt_dec (length (combine a b)) 64) as [L|L].
    - apply (Hal (combine a b)); [rewrite leaves_small by exact L; now left|exact E].
    - assert (Hex : exists blk, In blk (leaves (combine a b))).
      { clear. unfold leaves. apply (pairwise_ind 64 (fun b : list (fl * fl) => [b]) (@app _) (fun l r => exists blk, In blk r)); [lia| |].
        - intros x _. exists x. now left.
        - intros x y u v _ _ [k Hk] _. exists k. apply in_app_iff. now left. }
      destruct Hex as [blk Hblk]. destruct (leaves_segments _ blk Hblk) as (u & v & E' & _).
      rewrite E', !selected_app in E. apply app_eq_nil in E. destruct E as [_ E]. apply app_eq_nil in E. destruct E as [E _].
      exact (Hal blk Hblk E). }
  split; [exact Hw|].
  assert (Hne : a <> []) by (intros ->; apply Hw; reflexivity).
  rewrite fcov_filter_eq by assumption. destruct (pairwise_sel p (combine a b) Ok') as [E _]. rewrite (E Hal).
  unfold lift_stat, cov_value. fold w. rewrite !map_length.
  destruct (Z.leb_spec (Z.of_nat (length w) - ddof) 0) as [L|L]; [reflexivity|]. unfold ffz. rewrite fdiv_fin.
  - rewrite <- qcodev_combine by (now rewrite !map_length). rewrite combine_fst_snd. reflexivity.
  - change 0%Qc with (qz 0). rewrite qz_inj. lia.
Qed.

Lemma all_leaves_all l : l <> [] -> all_leaves_ok f_all l.
Proof.
  intros Hl blk Hin. destruct (leaves_segments l blk Hin) as (u & v & E & H1 & H2).
  unfold selected. change (filter (fun q => f_all (fst q)) blk) with (filter f_all blk). rewrite filter_all.
  destruct (le_lt_dec (length l) 64) as [L|L].
  - rewrite (H2 L). destruct l; simpl; congruence.
  - specialize (H1 L). destruct blk; simpl in *; [lia|discriminate].
Qed.
Lemma combine_map_fin x : forall y, combine (map Fin x) (map Fin y) = map (fun q => (Fin (fst q), Fin (snd q))) (combine x y).
Proof. induction x as [|u x IH]; intros [|v y]; simpl; try reflexivity. now rewrite IH. Qed.
Lemma selected_all x y : selected f_all (combine (map Fin x) (map Fin y)) = combine x y.
Proof.
  unfold selected. rewrite combine_map_fin.
  generalize (combine x y) as l. induction l as [|[u v] l IH]; [reflexivity|]. cbn [map filter f_all fst snd unfin]. f_equal. exact IH.
Qed.
Lemma fin_selection_all p x : finite_selection p (map Fin x).
Proof. intros u Hu _. apply in_map_iff in Hu. destruct Hu as (q & <- & _). eauto. Qed.
Lemma same_selection_all (a b : list fl) : length a = length b -> same_selection f_all a b.
Proof. intros H. split; [exact H|reflexivity]. Qed.

Lemma covariance_two_pass : forall ddof x y,
  (length x = length y -> x <> [] -> fcovariance ddof (map Fin x) (map Fin y) = Ok (cov_value ddof x y)) /\
  fcovariance ddof [] [] = Ok NaN /\
  (length x <> length y -> fcovariance ddof (map Fin x) (map Fin y) = RequireFail).
Proof.
  intros ddof x y. split; [|split; [reflexivity|]].
  - intros Hl Hx. unfold fcovariance, covariance. change (covariance_filter f0 f1 NaN PInf fadd fsub fmul fdiv (fun x => x) ffn ffz false) with fcov_filter.
    destruct (cov_of_selected f_all ddof (map Fin x) (map Fin y)) as [_ E].
    + apply same_selection_all. now rewrite !map_length.
    + apply fin_selection_all.
    + apply fin_selection_all.
    + apply all_leaves_all. destruct x, y; simpl in *; congruence.
    + rewrite E. unfold omap. cbn [bind fst]. rewrite selected_all, combine_fst, combine_snd by exact Hl. reflexivity.
  - intros H. unfold fcovariance, covariance, covariance_filter, require. rewrite !map_length, (proj2 (Nat.eqb_neq _ _) H). reflexivity.
Qed.
Lemma fvar_covariance ddof a : fvar ddof a = fcovariance ddof a a.
Proof.
  unfold fvar, var, var_filter, fcovariance, covariance. destruct (covariance_filter _ _ _ _ _ _ _ _ _ _ _ _ _ _ _ _) as [[v n]| | |]; reflexivity.
Qed.
Lemma fvar_filter_covariance ddof a p : fvar_filter ddof a p = fcov_filter ddof a a p.
Proof.
  unfold fvar_filter, var_filter, fcov_filter. destruct (covariance_filter _ _ _ _ _ _ _ _ _ _ _ _ _ _ _ _) as [[v n]| | |]; reflexivity.
Qed.

Lemma qsum_nonneg l : (forall v, In v l -> (0 <= v)%Qc) -> (0 <= qsum l)%Qc.
Proof.
  induction l as [|x l IH]; intros H; simpl; [apply Qcle_refl|].
  assert (A := H x (or_introl eq_refl)). assert (B := IH (fun v Hv => H v (or_intror Hv))). qc_lra.
Qed.
Lemma qsquare_nonneg x : (0 <= x * x)%Qc.
Proof. qc_nra. Qed.
Lemma combine_same {A} (x : list A) : combine x x = map (fun u => (u, u)) x.
Proof. induction x as [|u x IH]; simpl; [reflexivity|]. now rewrite IH. Qed.
Lemma dev_sum_self x : dev_sum x x = qsum (map (fun u => (u - qmean x) * (u - qmean x))%Qc x).
Proof. unfold dev_sum. rewrite combine_same, map_map. reflexivity. Qed.
Lemma dev_sum_self_nonneg x : (0 <= dev_sum x x)%Qc.
Proof. rewrite dev_sum_self. apply qsum_nonneg. intros v Hv. apply in_map_iff in Hv. destruct Hv as (u & <- & _). apply qsquare_nonneg. Qed.
Lemma qdiv_nonneg x y : (0 <= x)%Qc -> (0 < y)%Qc -> (0 <= x / y)%Qc.
Proof. intros Hx Hy. assert (I := Qcinv_pos y Hy). unfold Qcdiv. qc_nra. Qed.
Lemma qz_pos z : (0 < z)%Z -> (0 < qz z)%Qc.
Proof. intros H. change 0%Qc with (qz 0). now rewrite <- qz_lt. Qed.

Lemma var_properties : forall ddof x, x <> [] ->
  fvar ddof (map Fin x) = Ok (cov_value ddof x x) /\
  ((ddof < Z.of_nat (length x))%Z -> exists v, cov_value ddof x x = Fin v /\ (0 <= v)%Qc /\
     v = (qsum (map (fun u => (u - qmean x) * (u - qmean x)) x) / qz (Z.of_nat (length x) - ddof))%Qc /\
     (forall c, fvar ddof (map Fin (map (fun u => u + c)%Qc x)) = Ok (Fin v)) /\
     (forall k, fvar ddof (map Fin (map (fun u => k * u)%Qc x)) = Ok (Fin (k * k * v)%Qc))) /\
  ((Z.of_nat (length x) <= ddof)%Z -> fvar ddof (map Fin x) = Ok PInf).
Proof.
  intros ddof x Hx.
  assert (V : forall x, x <> [] -> fvar ddof (map Fin x) = Ok (cov_value ddof x x)).
  { intros y Hy. rewrite fvar_covariance. now apply covariance_two_pass. }
  assert (Hn : qn (length x) <> 0%Qc) by (apply qn_neq0; destruct x; simpl; congruence).
  split; [auto|]. split.
  - intros Hd. unfold cov_value. destruct (Z.leb_spec (Z.of_nat (length x) - ddof) 0) as [L|L]; [lia|].
    eexists. split; [reflexivity|]. split; [apply qdiv_nonneg; [apply dev_sum_self_nonneg|apply qz_pos; lia]|].
    split; [now rewrite dev_sum_self|]. split.
    + intros c. rewrite V by (destruct x; simpl; congruence). unfold cov_value. rewrite map_length.
      destruct (Z.leb_spec (Z.of_nat (length x) - ddof) 0) as [L2|_]; [lia|]. apply f_equal, f_equal. f_equal.
      rewrite !dev_sum_self, map_map.
      assert (M : qmean (map (fun u => (u + c)%Qc) x) = (qmean x + c)%Qc).
      { unfold qmean. rewrite map_length. assert (E : qsum (map (fun u => (u + c)%Qc) x) = (qsum x + qn (length x) * c)%Qc).
        { clear. induction x as [|u x IH]; simpl; [change (qn 0) with 0%Qc; ring|]. rewrite IH, qn_S. ring. }
        rewrite E. field. exact Hn. }
      rewrite M. f_equal. apply map_ext. intros u. ring.
    + intros k. rewrite V by (destruct x; simpl; congruence). unfold cov_value. rewrite map_length.
      destruct (Z.leb_spec (Z.of_nat (length x) - ddof) 0) as [L2|_]; [lia|]. apply f_equal, f_equal.
      rewrite !dev_sum_self, map_map.
      assert (M : qmean (map (fun u => (k * u)%Qc) x) = (k * qmean x)%Qc).
      { unfold qmean. rewrite map_length. assert (E : qsum (map (fun u => (k * u)%Qc) x) = (k * qsum x)%Qc).
        { clear. induction x as [|u x IH]; simpl; [ring|]. rewrite IH. ring. }
        rewrite E. field. exact Hn. }
      rewrite M.
      assert (E : forall m, qsum (map (fun u => ((k * u - k * m) * (k * u - k * m))%Qc) x) = (k * k * qsum (map (fun u => ((u - m) * (u - m))%Qc) x))%Qc).
      { intros m. clear. induction x as [|u x IH]; simpl; [ring|]. rewrite IH. ring. }
      rewrite E. unfold Qcdiv. ring.
  - intros Hd. rewrite V by exact Hx. unfold cov_value. destruct (Z.leb_spec (Z.of_nat (length x) - ddof) 0); [reflexivity|lia].
Qed.

(** *** filters *)
Lemma in_combine_sel p (a b : list fl) u : same_selection p a b -> In u a -> p u = true -> selected p (combine a b) <> [].
Proof.
  intros [Hl _] Hu Hp. unfold selected. intros E. apply map_eq_nil in E.
  rewrite <- (combine_fst a b Hl) in Hu. apply in_map_iff in Hu. destruct Hu as (q & <- & Hq).
  assert (I : In q (filter (fun q => p (fst q)) (combine a b))) by (apply filter_In; auto). rewrite E in I. destruct I.
Qed.
Lemma dense_leaves p a b : same_selection p a b -> dense p a -> all_leaves_ok p (combine a b).
Proof.
  intros HS HD blk Hin. destruct (leaves_segments _ blk Hin) as (u & v & E & H1 & H2). destruct HS as [Hl HS].
  assert (Hlc : length (combine a b) = length a) by (rewrite combine_length; lia).
  assert (key : forall k, In k (map fst blk) -> p k = true -> selected p blk <> []).
  { intros k Hk Hp C. unfold selected in C. apply map_eq_nil in C. apply in_map_iff in Hk. destruct Hk as (q & <- & Hq).
    assert (I : In q (filter (fun q => p (fst q)) blk)) by (apply filter_In; auto). rewrite C in I. destruct I. }
  assert (Ha : a = map fst u ++ map fst blk ++ map fst v) by (rewrite <- !map_app, <- E; symmetry; now apply combine_fst).
  destruct (le_lt_dec (length a) 64) as [L|L].
  - rewrite Hlc in H2. rewrite (H2 L) in *. destruct HD as [[_ (k & Hk & Hp)]|[L32 HD]].
    + apply (key k); [now rewrite combine_fst|exact Hp].
    + destruct (HD 0) as (k & Hk & Hp); [lia|]. apply (key k); [|exact Hp]. rewrite combine_fst by exact Hl.
      change (skipn 0 a) with a in Hk. rewrite <- (firstn_skipn 32 a). apply in_or_app. now left.
  - rewrite Hlc in H1. specialize (H1 L). destruct HD as [[L' _]|[_ HD]]; [lia|].
    destruct (HD (length (map fst u))) as (k & Hk & Hp).
    { rewrite Ha at 1. rewrite !app_length, !map_length. lia. }
    apply (key k); [|exact Hp]. rewrite Ha in Hk. rewrite skipn_app, Nat.sub_diag, skipn_all in Hk. cbn [app skipn] in Hk.
    rewrite firstn_app in Hk. rewrite map_length in Hk. replace (32 - length blk) with 0 in Hk by lia. rewrite firstn_O, app_nil_r in Hk.
    rewrite <- (firstn_skipn 32 (map fst blk)). apply in_or_app. now left.
Qed.

Lemma covariance_selected : forall p ddof a b, same_selection p a b -> finite_selection p a -> finite_selection p b -> dense p a ->
  fcov_filter ddof a b p = fcov_filter ddof (filter p a) (filter p b) f_all.
Proof.
  intros p ddof a b HS Ha Hb HD.
  destruct (cov_of_selected p ddof a b HS Ha Hb (dense_leaves p a b HS HD)) as [Hw E]. rewrite E.
  destruct (selected_fst p a b HS Ha Hb) as [-> ->]. set (w := selected p (combine a b)) in *.
  destruct (cov_of_selected f_all ddof (map Fin (map fst w)) (map Fin (map snd w))) as [_ E2].
  - apply same_selection_all. now rewrite !map_length.
  - apply fin_selection_all.
  - apply fin_selection_all.
  - apply all_leaves_all. rewrite combine_map_fin. destruct w; simpl; congruence.
  - rewrite E2, selected_all, combine_fst_snd. reflexivity.
Qed.
Lemma same_selection_refl p a : same_selection p a a.
Proof. split; [reflexivity|]. intros i u v -> [= <-]. reflexivity. Qed.
Lemma variance_selected : forall p ddof a, finite_selection p a -> dense p a ->
  fvar_filter ddof a p = fvar_filter ddof (filter p a) f_all.
Proof. intros p ddof a Ha HD. rewrite !fvar_filter_covariance. apply covariance_selected; auto using same_selection_refl. Qed.

(** the code's answer when a leaf of the recursion has no selected element *)
Lemma repeat_nan_sel n : Forall (sel_ok not_nan) (combine (repeat NaN n) (repeat NaN n)).
Proof.
  rewrite combine_same. rewrite Forall_forall. intros q Hq. apply in_map_iff in Hq. destruct Hq as (u & <- & Hu).
  apply repeat_spec in Hu. subst u. split; [reflexivity|]. discriminate.
Qed.
Lemma nanvar_poisoned : forall (d : list Qc) ddof, length d = 64 -> (ddof < 64)%Z ->
  fvar_filter ddof (repeat NaN 64 ++ map Fin d) not_nan = Ok (NaN, 64) /\
  exists v, fvar_filter ddof (filter not_nan (repeat NaN 64 ++ map Fin d)) f_all = Ok (Fin v, 64).
Proof.
  intros d ddof Hd Hdd. set (a := repeat NaN 64 ++ map Fin d).
  assert (Hfa : finite_selection not_nan a).
  { intros u Hu Hp. apply in_app_iff in Hu. destruct Hu as [Hu|Hu]; [apply repeat_spec in Hu; subst; discriminate|].
    apply in_map_iff in Hu. destruct Hu as (q & <- & _). eauto. }
  assert (Ff : filter not_nan a = map Fin d).
  { unfold a. rewrite filter_app.
    assert (E1 : filter not_nan (repeat NaN 64) = []) by reflexivity. rewrite E1. cbn [app].
    clear. induction d as [|x d IH]; [reflexivity|]. cbn [map filter not_nan fisnan negb]. now rewrite IH. }
  assert (Hs : length (selected not_nan (combine a a)) = 64).
  { destruct (selected_fst not_nan a a (same_selection_refl _ _) Hfa Hfa) as [E _].
    rewrite Ff in E. apply (f_equal (@length _)) in E. rewrite !map_length in E. congruence. }
  rewrite fvar_filter_covariance. split.
  - rewrite fcov_filter_eq by (try reflexivity; discriminate).
    destruct (pairwise_sel not_nan (combine a a)) as (_ & E & _).
    { apply same_selection_ok; auto using same_selection_refl. }
    rewrite E, Hs.
    + change (Z.of_nat 64) with 64%Z. destruct (Z.leb_spec (64 - ddof) 0); [lia|reflexivity].
    + intros C. assert (L : leaves (combine a a) = [map (fun u => (u, u)) (repeat NaN 64); map (fun u => (u, u)) (map Fin d)]).
      { rewrite combine_same. unfold a. rewrite map_app. rewrite leaves_app.
        - rewrite !leaves_small by (rewrite !map_length, ?repeat_length; lia). reflexivity.
        - rewrite !map_length, repeat_length. lia.
        - rewrite !map_length, repeat_length. lia. }
      unfold all_leaves_ok in C. rewrite L in C. apply (C _ (or_introl eq_refl)). reflexivity.
    + rewrite combine_length. unfold a. rewrite app_length, repeat_length, map_length. lia.
  - rewrite Ff. rewrite fvar_filter_covariance.
    destruct (cov_of_selected f_all ddof (map Fin d) (map Fin d)) as [_ E].
    + apply same_selection_refl.
    + apply fin_selection_all.
    + apply fin_selection_all.
    + apply all_leaves_all. destruct d; simpl in *; [lia|discriminate].
    + rewrite E, selected_all, combine_length, combine_fst, combine_snd by reflexivity. unfold cov_value. rewrite Hd, Nat.min_id.
      change (Z.of_nat 64) with 64%Z. destruct (Z.leb_spec (64 - ddof) 0); [lia|]. eauto.
Qed.

(** *** Cauchy-Schwarz *)
Lemma qsum_map_add {A} (f g : A -> Qc) l : qsum (map (fun x => f x + g x)%Qc l) = (qsum (map f l) + qsum (map g l))%Qc.
Proof. induction l as [|x l IH]; simpl; [ring|]. rewrite IH. ring. Qed.
Lemma qsum_map_scale {A} c (f : A -> Qc) l : qsum (map (fun x => c * f x)%Qc l) = (c * qsum (map f l))%Qc.
Proof. induction l as [|x l IH]; simpl; [ring|]. rewrite IH. ring. Qed.
Lemma qsum_square_expand b s (l : list (Qc * Qc)) :
  qsum (map (fun p => ((b * fst p - s * snd p) * (b * fst p - s * snd p))%Qc) l) =
  (b * b * qsum (map (fun p => fst p * fst p) l) - (1 + 1) * b * s * qsum (map (fun p => fst p * snd p) l)
   + s * s * qsum (map (fun p => snd p * snd p) l))%Qc.
Proof. induction l as [|[u v] l IH]; simpl; [ring|]. rewrite IH. simpl. ring. Qed.
Lemma cauchy_schwarz (l : list (Qc * Qc)) :
  (qsum (map (fun p => fst p * snd p) l) * qsum (map (fun p => fst p * snd p) l) <=
   qsum (map (fun p => fst p * fst p) l) * qsum (map (fun p => snd p * snd p) l))%Qc.
Proof.
  set (S := qsum (map (fun p => (fst p * snd p)%Qc) l)). set (A := qsum (map (fun p => (fst p * fst p)%Qc) l)).
  set (B := qsum (map (fun p => (snd p * snd p)%Qc) l)).
  assert (HB : (0 <= B)%Qc).
  { apply qsum_nonneg. intros v Hv. apply in_map_iff in Hv. destruct Hv as (u & <- & _). apply qsquare_nonneg. }
  assert (H : (0 <= B * (A * B - S * S))%Qc).
  { replace (B * (A * B - S * S))%Qc with (qsum (map (fun p => ((B * fst p - S * snd p) * (B * fst p - S * snd p))%Qc) l)).
    - apply qsum_nonneg. intros v Hv. apply in_map_iff in Hv. destruct Hv as (u & <- & _). apply qsquare_nonneg.
    - rewrite (qsum_square_expand B S l). fold A B S. ring. }
  destruct (qeqb_spec B 0) as [E|E].
  - assert (S0 : S = 0%Qc).
    { unfold S. clear S A H. unfold B in *. clear B. induction l as [|[u v] l IH]; [reflexivity|]. simpl in *.
      assert (N : (0 <= qsum (map (fun p => (snd p * snd p)%Qc) l))%Qc).
      { apply qsum_nonneg. intros w Hw. apply in_map_iff in Hw. destruct Hw as (q & <- & _). apply qsquare_nonneg. }
      assert (V := qsquare_nonneg v).
      assert (V0 : (v * v = 0)%Qc) by (apply Qcle_antisym; qc_lra).
      apply Qcmult_integral in V0. assert (v = 0%Qc) by tauto. subst v.
      rewrite IH; [ring| |]; [exact N|]. rewrite <- E. ring. }
    rewrite S0, E. replace (0 * 0)%Qc with 0%Qc by ring. replace (A * 0)%Qc with 0%Qc by ring. apply Qcle_refl.
  - assert (P : (0 < B)%Qc) by (apply Qcnot_le_lt; intros C; apply E, Qcle_antisym; assumption).
    apply Qcnot_lt_le. intros C. assert (D : (B * (A * B - S * S) < 0)%Qc).
    { assert (F : (0 < S * S - A * B)%Qc) by qc_lra. assert (G : (0 < B * (S * S - A * B))%Qc) by (apply Qcmul_pos; assumption). qc_lra. }
    qc_lra.
Qed.
Lemma cov_matrix : forall ddof x y, length x = length y -> (ddof < Z.of_nat (length x))%Z -> x <> [] ->
  exists vx c vy, fcovmat ddof (map Fin x) (map Fin y) f_all = Ok (Fin vx, Fin c, Fin c, Fin vy) /\
    fvar ddof (map Fin x) = Ok (Fin vx) /\ fvar ddof (map Fin y) = Ok (Fin vy) /\ fcovariance ddof (map Fin x) (map Fin y) = Ok (Fin c) /\
    (c * c <= vx * vy)%Qc /\ (0 <= vx)%Qc /\ (0 <= vy)%Qc.
Proof.
  intros ddof x y Hl Hd Hx.
  assert (Hy : y <> []) by (destruct x, y; simpl in *; congruence).
  assert (F : forall u v, length u = length v -> u <> [] -> exists n, fcov_filter ddof (map Fin u) (map Fin v) f_all = Ok (cov_value ddof u v, n)).
  { intros u v Huv Hu. destruct (cov_of_selected f_all ddof (map Fin u) (map Fin v)) as [_ E].
    - apply same_selection_all. now rewrite !map_length.
    - apply fin_selection_all.
    - apply fin_selection_all.
    - apply all_leaves_all. destruct u, v; simpl in *; congruence.
    - rewrite E, selected_all, combine_fst, combine_snd by exact Huv. eauto. }
  assert (Cv : forall u v, length u = length x -> cov_value ddof u v = Fin (dev_sum u v / qz (Z.of_nat (length x) - ddof))%Qc).
  { intros u v Hu. unfold cov_value. rewrite Hu. destruct (Z.leb_spec (Z.of_nat (length x) - ddof) 0); [lia|reflexivity]. }
  set (d := qz (Z.of_nat (length x) - ddof)) in *. assert (Hdp : (0 < d)%Qc) by (apply qz_pos; lia).
  exists (dev_sum x x / d)%Qc, (dev_sum x y / d)%Qc, (dev_sum y y / d)%Qc. split; [|split; [|split; [|split; [|split]]]].
  - destruct (F x y Hl Hx) as [n1 E1], (F x x eq_refl Hx) as [n2 E2], (F y y eq_refl Hy) as [n3 E3].
    unfold fcovmat, cov.
    change (covariance_filter f0 f1 NaN PInf fadd fsub fmul fdiv (fun x => x) ffn ffz false) with fcov_filter.
    change (var_filter f0 f1 NaN PInf fadd fsub fmul fdiv (fun x => x) ffn ffz false (fun x => x)) with fvar_filter.
    rewrite E1. cbn [bind]. rewrite !fvar_filter_covariance, E2. cbn [bind]. rewrite E3. cbn [bind]. rewrite !Cv by congruence. reflexivity.
  - destruct (var_properties ddof x Hx) as [-> _]. now rewrite Cv.
  - destruct (var_properties ddof y Hy) as [-> _]. now rewrite Cv by congruence.
  - destruct (covariance_two_pass ddof x y) as [E _]. rewrite (E Hl Hx). now rewrite Cv.
  - pose proof (cauchy_schwarz (map (fun p => (fst p - qmean x, snd p - qmean y)%Qc) (combine x y))) as CS.
    rewrite !map_map in CS. cbn [fst snd] in CS.
    assert (Ex : qsum (map (fun p => ((fst p - qmean x) * (fst p - qmean x))%Qc) (combine x y)) = dev_sum x x).
    { rewrite dev_sum_self. generalize (qmean x) as m. intros m. f_equal. rewrite <- (combine_fst x y Hl) at 2. now rewrite map_map. }
    assert (Ey : qsum (map (fun p => ((snd p - qmean y) * (snd p - qmean y))%Qc) (combine x y)) = dev_sum y y).
    { rewrite dev_sum_self. generalize (qmean y) as m. intros m. f_equal. rewrite <- (combine_snd x y Hl) at 2. now rewrite map_map. }
    rewrite Ex, Ey in CS. fold (dev_sum x y) in CS.
    replace (dev_sum x y / d * (dev_sum x y / d))%Qc with ((dev_sum x y * dev_sum x y) * (/ d * / d))%Qc by (unfold Qcdiv; ring).
    replace (dev_sum x x / d * (dev_sum y y / d))%Qc with ((dev_sum x x * dev_sum y y) * (/ d * / d))%Qc by (unfold Qcdiv; ring).
    apply Qcmult_le_compat_r; [exact CS|apply qsquare_nonneg].
  - split; apply qdiv_nonneg; auto using dev_sum_self_nonneg.
Qed.

(** *** moments *)
Lemma upow_fin n v : upow f1 fmul (Z.of_nat n) (Fin v) = Fin (rpow 1%Qc Qcmult v n).
Proof.
  rewrite (upow_spec f1 fmul); auto using fmul_assoc, fmul_1_l, fmul_1_r.
  rewrite Zabs2Nat.abs_nat_nonneg || rewrite Z.abs_eq by lia. rewrite Nat2Z.id.
  induction n as [|n IH]; simpl; [reflexivity|]. rewrite IH. reflexivity.
Qed.
Lemma upow_nan n : n <> 0 -> upow f1 fmul (Z.of_nat n) NaN = NaN.
Proof.
  intros Hn. rewrite (upow_spec f1 fmul); auto using fmul_assoc, fmul_1_l, fmul_1_r.
  rewrite Z.abs_eq by lia. rewrite Nat2Z.id. destruct n; [congruence|]. reflexivity.
Qed.
Lemma moment_selected : forall n p a w, 3 <= n -> filter p a = map Fin w -> w <> [] ->
  (forall u, In u a -> p (upow f1 fmul (Z.of_nat n) (fsub u (Fin (qmean w)))) = p u) ->
  fmoment n a p = Ok (Fin (qmean (map (fun v => rpow 1%Qc Qcmult (v - qmean w)%Qc n) w))).
Proof.
  intros n p a w Hn Hw Hne Hp. unfold fmoment, moment. do 3 (destruct n as [|n]; [lia|]). set (N := S (S (S n))) in *.
  change (mean_filter f0 NaN fadd fdiv ffn false) with fmean_filter.
  rewrite (fmean_filter_eq a p), Hw, fmean_fin by exact Hne. rewrite !transform1_map, map_map, fmean_filter_eq. f_equal.
  rewrite <- (fmean_fin (map (fun v => rpow 1%Qc Qcmult (v - qmean w)%Qc N) w)) by (destruct w; simpl; congruence). f_equal.
  rewrite map_map.
  transitivity (map (fun u => upow f1 fmul (Z.of_nat N) (fsub u (Fin (qmean w)))) (filter p a)).
  - clear Hw Hne. induction a as [|u a IH]; [reflexivity|]. cbn [map filter]. rewrite (Hp u) by (now left).
    destruct (p u); cbn [map]; rewrite IH by (intros; apply Hp; now right); reflexivity.
  - rewrite Hw, map_map. apply map_ext. intros v. cbn [fsub fneg fadd]. exact (upow_fin N (v - qmean w)%Qc).
Qed.
Lemma nanmoment : forall n a, 3 <= n -> finite_selection not_nan a -> forall w, filter not_nan a = map Fin w -> w <> [] ->
  fmoment n a not_nan = Ok (Fin (qmean (map (fun v => rpow 1%Qc Qcmult (v - qmean w)%Qc n) w))).
Proof.
  intros n a Hn Ha w Hw Hne. apply moment_selected; auto. intros u Hu. destruct (not_nan u) eqn:E.
  - destruct (Ha u Hu E) as [q ->]. cbn [fsub fneg fadd]. rewrite (upow_fin n (q + - qmean w)%Qc). reflexivity.
  - destruct u; try discriminate. cbn [fsub fneg fadd]. rewrite upow_nan by lia. reflexivity.
Qed.
Lemma moment_all : forall n x, 3 <= n -> x <> [] ->
  fmoment n (map Fin x) f_all = Ok (Fin (qmean (map (fun v => rpow 1%Qc Qcmult (v - qmean x)%Qc n) x))).
Proof. intros n x Hn Hx. apply moment_selected; auto. apply filter_all. Qed.
Lemma moment_2 : forall x, x <> [] ->
  fmoment 2 (map Fin x) f_all = Ok (Fin (qmean (map (fun v => rpow 1%Qc Qcmult (v - qmean x)%Qc 2) x))).
Proof.
  intros x Hx. change (fmoment 2 (map Fin x) f_all) with (fvar 0 (map Fin x)).
  destruct (var_properties 0 x Hx) as [-> [H _]]. destruct H as (v & -> & _ & -> & _).
  { destruct x; simpl; [congruence|lia]. }
  apply f_equal, f_equal. generalize (qmean x) as m. intros m. unfold qmean. rewrite map_length, Z.sub_0_r, <- qn_qz. f_equal. f_equal. apply map_ext. intros u. simpl. ring.
Qed.
Lemma nanvar_all_nan : forall n,
  fvar_filter 0 (repeat NaN (S n)) not_nan = Ok (PInf, 0) /\ fvar_filter 0 (filter not_nan (repeat NaN (S n))) f_all = Ok (NaN, 0).
Proof.
  intros n. assert (F : forall m, filter not_nan (repeat NaN m) = []) by (induction m; simpl; auto). split; [|now rewrite F].
  rewrite fvar_filter_covariance, fcov_filter_eq by (try reflexivity; discriminate).
  set (l := combine (repeat NaN (S n)) (repeat NaN (S n))).
  assert (Hs : selected not_nan l = []).
  { unfold l. rewrite combine_same. unfold selected. generalize (S n). induction n0 as [|m IH]; [reflexivity|]. simpl. exact IH. }
  destruct (pairwise_sel not_nan l (repeat_nan_sel (S n))) as (H1 & H2 & H3).
  assert (NA : ~ all_leaves_ok not_nan l).
  { intros C. assert (Hl : l <> []) by (unfold l; simpl; discriminate).
    destruct (leaves l) as [|blk L] eqn:E.
    - pose proof (all_leaves_all l Hl) as A. clear -E Hl.
      assert (Hex : exists blk, In blk (leaves l)).
      { unfold leaves. apply (pairwise_ind 64 (fun b : list (fl * fl) => [b]) (@app _) (fun l r => exists blk, In blk r)); [lia| |].
        - intros x _. exists x. now left.
        - intros x y u v _ _ [k Hk] _. exists k. apply in_app_iff. now left. }
      rewrite E in Hex. destruct Hex as [? []].
    - assert (Hin : In blk (leaves l)) by (rewrite E; now left).
      destruct (leaves_segments l blk Hin) as (u & v & El & _). rewrite El, !selected_app in Hs.
      apply app_eq_nil in Hs. destruct Hs as [_ Hs]. apply app_eq_nil in Hs. destruct Hs as [Hs _]. exact (C blk Hin Hs). }
  destruct (le_lt_dec (length l) 64) as [L|L].
  - destruct (H3 NA L) as [-> _]. reflexivity.
  - rewrite (H2 NA L), Hs. reflexivity.
Qed.
