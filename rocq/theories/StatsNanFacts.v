From Coq Require Import List Arith ZArith Reals Bool Lia Lra.
From Verif Require Import Base Functional FunctionalProofs Spec Numeric NumericProofs Stats StatsMoments StatsVar StatsRealFacts StatsNan.
From Coq Require Import Lra Psatz Lia.
Import ListNotations.
Open Scope nat_scope.
Set Implicit Arguments.

(** the numbers among the elements selected by p *)
Definition kept (p : num -> bool) (a : list num) : list R :=
  flat_map (fun u => match u with Some x => if p u then [x] else [] | None => [] end) a.
Definition sq_dev (w : list R) : R := total (map (fun u => (u - average w) ^ 2)%R w).

Section Facts.
Variable p : num -> bool.
Hypothesis pnan : p None = false.
Lemma kept_app a b : kept p (a ++ b) = kept p a ++ kept p b.
Proof. unfold kept. apply flat_map_app. Qed.
Lemma filter_kept a : filter p a = map Some (kept p a).
Proof. induction a as [|[x|] a IH]; cbn; [reflexivity| |now rewrite pnan]. destruct (p (Some x)); cbn; now rewrite IH. Qed.

Lemma nadd_assoc x y z : nadd (nadd x y) z = nadd x (nadd y z).
Proof. destruct x, y, z; cbn; try reflexivity. f_equal. ring. Qed.
Lemma nadd_0_l x : nadd (Some 0%R) x = x. Proof. destruct x; cbn; [f_equal; ring|reflexivity]. Qed.
Lemma nadd_0_r x : nadd x (Some 0%R) = x. Proof. destruct x; cbn; [f_equal; ring|reflexivity]. Qed.
Lemma bigop_some w : bigop nadd (Some 0%R) (map Some w) = Some (total w).
Proof. unfold total. induction w as [|x w IH]; cbn; [reflexivity|]. now rewrite IH. Qed.
Lemma ndiv_some x y : y <> 0%R -> ndiv (Some x) (Some y) = Some (x / y)%R.
Proof. intros H. unfold ndiv. destruct (Req_EM_T y 0); [contradiction|reflexivity]. Qed.
Lemma nmean_kept a : nmean a p = match kept p a with [] => None | w => Some (average w) end.
Proof.
  destruct a as [|u0 a0]; [reflexivity|]. set (a := u0 :: a0). unfold nmean, mean_filter.
  replace (length a =? 0) with false by reflexivity.
  unfold sum_filter. rewrite filter_reduce_associative_spec; auto using nadd_assoc, nadd_0_l, nadd_0_r.
  rewrite fold_left_bigop; auto using nadd_assoc, nadd_0_l, nadd_0_r. rewrite filter_kept, bigop_some, map_length.
  destruct (kept p a) as [|x w] eqn:E.
  - unfold nofn, ndiv. cbn [length INR]. destruct (Req_EM_T 0 0); [reflexivity|lra].
  - apply ndiv_some. apply not_0_INR. discriminate.
Qed.

Definition lift (w : list R) : num * num * num * nat := (Some (average w), Some (average w), Some (sq_dev w), length w).
Definition nblock := cov_block (Some 0%R) None nadd nsub nmul ndiv (fun x => x) nofn false p.
Definition ncomb := cov_combine (Some 1%R) nadd nsub nmul ndiv (fun x => x) nofn.
Definition dup (u : num) := (u, u).
Lemma fold_kept m a : forall r c,
  fold_left (fun st xy => if p (fst xy) && p (snd xy) then (nadd (fst st) (nmul (nsub (fst xy) (Some m)) (nsub (snd xy) (Some m))), S (snd st)) else st)
    (map dup a) (Some r, c) = (Some (r + total (map (fun u => (u - m) ^ 2) (kept p a)))%R, c + length (kept p a)).
Proof.
  induction a as [|u a IH]; intros r c; cbn [map fold_left kept flat_map].
  - unfold total. cbn. f_equal; [f_equal; ring|lia].
  - cbn [dup fst snd]. destruct u as [x|]; [|rewrite pnan; cbn [andb app]; apply IH]. destruct (p (Some x)); cbn [andb app]; [|apply IH].
    cbn [nadd nmul nsub nlift2 fst snd]. rewrite IH. change (flat_map _ a) with (kept p a). cbn [map length]. rewrite total_cons. f_equal; [f_equal; ring|lia].
Qed.
Lemma map_dup_fst a : map fst (map dup a) = a. Proof. rewrite map_map. apply map_id. Qed.
Lemma map_dup_snd a : map snd (map dup a) = a. Proof. rewrite map_map. apply map_id. Qed.
Lemma nblock_ok a : kept p a <> [] -> nblock (map dup a) = lift (kept p a).
Proof.
  intros H. unfold nblock, cov_block. rewrite map_dup_fst, map_dup_snd.
  change (mean_filter (Some 0%R) None nadd ndiv nofn false a p) with (nmean a p). rewrite nmean_kept.
  destruct (kept p a) as [|x w] eqn:E; [contradiction|]. rewrite <- E. rewrite fold_kept. unfold lift, sq_dev. rewrite Rplus_0_l. reflexivity.
Qed.
Lemma ncomb_ok w1 w2 : w1 <> [] -> w2 <> [] -> ncomb (lift w1) (lift w2) = lift (w1 ++ w2).
Proof.
  intros H1 H2. set (d := fun u : R => (u, u)).
  assert (D : forall w, map d w <> [] <-> w <> []) by (intros [|]; cbn; split; congruence).
  pose proof (@cov_combine_spec R 0%R 1%R Rplus Rmult Rminus Ropp Rdiv Rinv (fun x => x) INR R_field
        (fun _ _ => eq_refl) (fun _ _ => eq_refl) (fun _ => eq_refl) eq_refl eq_refl plus_INR INR_nz (map d w1) (map d w2)) as E.
  rewrite !D in E. specialize (E H1 H2). rewrite <- map_app in E.
  assert (Q : forall w, kcodev R 0%R Rplus Rmult Rminus Rdiv (fun x => x) INR (map d w) = sq_dev w).
  { intros w. unfold sq_dev; rewrite <- kcodev_R. apply f_equal. clear -d. induction w as [|u w IH]; [reflexivity|]. cbn [map combine]. rewrite IH. reflexivity. }
  rewrite !Q, !map_map in E. cbn [fst snd d] in E. rewrite !map_id, !map_length in E. change (kmean R 0%R Rplus Rdiv INR) with average in E.
  assert (N : INR (length w1 + length w2) <> 0%R) by (apply not_0_INR; destruct w1; cbn in *; [congruence|lia]).
  unfold ncomb, cov_combine, lift, nofn. unfold cov_combine in E.
  pose proof (f_equal (fun t => fst (fst (fst t))) E) as E1. pose proof (f_equal (fun t => snd (fst t)) E) as E3. cbn [fst snd] in E1, E3. clear E.
  rewrite !ndiv_some by exact N. cbn [nmul nadd nsub nlift2]. rewrite ndiv_some by exact N. cbn [nmul nadd nsub nlift2]. rewrite E1, E3, app_length. reflexivity.
Qed.
Definition leaves_ok (a : list num) : Prop := forall blk, In blk (leaves a) -> kept p blk <> [].
Lemma leaf_exists (a : list num) : exists blk, In blk (leaves a).
Proof.
  unfold leaves. apply (pairwise_ind 64 (fun b : list num => [b]) (@app _) (fun l r => exists blk, In blk r)); [lia| |].
  - intros x _. exists x. now left.
  - intros x y u v _ _ [k Hk] _. exists k. apply in_app_iff. now left.
Qed.
Lemma leaves_ok_kept a : leaves_ok a -> kept p a <> [].
Proof.
  intros H. destruct (leaf_exists a) as [blk Hb]. destruct (leaves_segments a blk Hb) as (u & v & -> & _). specialize (H blk Hb).
  rewrite !kept_app. destruct (kept p blk); [contradiction|]. intros C. apply app_eq_nil in C. destruct C as [_ C]. discriminate.
Qed.
Lemma pairwise_kept a : leaves_ok a -> pairwise_accumulate 64 nblock ncomb (map dup a) = lift (kept p a).
Proof.
  intros H. remember (map dup a) as l eqn:E. revert a E H.
  apply (pairwise_ind 64 nblock ncomb (fun l r => forall a, l = map dup a -> leaves_ok a -> r = lift (kept p a))); [lia| |].
  - intros m Hm a -> H. rewrite map_length in Hm. apply nblock_ok. apply H. rewrite leaves_small by exact Hm. now left.
  - intros m1 m2 r1 r2 HB Hab IH1 IH2 a E H. symmetry in E. apply map_eq_app in E. destruct E as (a1 & a2 & -> & <- & <-).
    rewrite !map_length in *. assert (L : leaves_ok a1 /\ leaves_ok a2).
    { unfold leaves_ok in *. rewrite leaves_app in H by lia. split; intros blk Hb; apply H, in_app_iff; auto. }
    destruct L as [L1 L2]. rewrite (IH1 a1 eq_refl L1), (IH2 a2 eq_refl L2), kept_app. apply ncomb_ok; apply leaves_ok_kept; assumption.
Qed.
Lemma combine_dup (a : list num) : combine a a = map dup a.
Proof. induction a as [|u a IH]; [reflexivity|]. cbn [combine map]. rewrite IH. reflexivity. Qed.
Lemma nvar_n_eq ddof a : a <> [] -> nvar_n ddof a p =
  let '(m1, m2, c, n) := pairwise_accumulate 64 nblock ncomb (map dup a) in
  Ok (if (Z.of_nat n - ddof <=? 0)%Z then None else ndiv c (nofz (Z.of_nat n - ddof)), n).
Proof.
  intros Ha. unfold nvar_n, var_filter, covariance_filter, require. rewrite Nat.eqb_refl.
  destruct a as [|u0 a0]; [contradiction|]. set (a := u0 :: a0). replace (length a =? 0) with false by reflexivity.
  unfold pairwise_accumulate2, require. rewrite Nat.eqb_refl. cbn [bind]. rewrite combine_dup.
  change (pairwise_accumulate 64 _ _ (map dup a)) with (pairwise_accumulate 64 nblock ncomb (map dup a)).
  destruct (pairwise_accumulate 64 nblock ncomb (map dup a)) as [[[m1 m2] c] n]. destruct (Z.leb_spec (Z.of_nat n - ddof) 0); reflexivity.
Qed.
Lemma nvar_n_kept ddof a : leaves_ok a -> (ddof < Z.of_nat (length (kept p a)))%Z ->
  nvar_n ddof a p = Ok (Some (sq_dev (kept p a) / IZR (Z.of_nat (length (kept p a)) - ddof))%R, length (kept p a)).
Proof.
  intros H Hd. rewrite nvar_n_eq by (intros ->; apply (leaves_ok_kept H); reflexivity). rewrite (pairwise_kept H). unfold lift.
  destruct (Z.leb_spec (Z.of_nat (length (kept p a)) - ddof) 0); [lia|]. unfold nofz. rewrite ndiv_some; [reflexivity|]. apply not_0_IZR. lia.
Qed.
End Facts.
