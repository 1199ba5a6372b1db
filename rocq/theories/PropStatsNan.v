(** C114: statistics of the numbers in an array with NaNs, and of the elements within limits. *)
From Coq Require Import List Arith ZArith Reals Bool.
From Verif Require Import Base Functional FunctionalProofs Spec Numeric NumericProofs Stats StatsMoments StatsVar StatsRealFacts StatsNan StatsNanFacts.
From Coq Require Import Lra Psatz Lia.
Import ListNotations.
Open Scope nat_scope.

(** the numbers of an array (None is NaN), in order, and those within limits, each limit included or not *)
Definition numbers (a : list num) : list R := flat_map (fun u => match u with Some x => [x] | None => [] end) a.
Definition above (lo : R) (included : bool) (x : R) : bool := if included then (if Rle_dec lo x then true else false) else (if Rlt_dec lo x then true else false).
Definition below (hi : R) (included : bool) (x : R) : bool := if included then (if Rle_dec x hi then true else false) else (if Rlt_dec x hi then true else false).
Definition within (lo hi : R) (il ih : bool) (a : list num) : list R := filter (fun x => above lo il x && below hi ih x) (numbers a).
(** textbook formulas; average is the sum divided by the count *)
Definition variance (ddof : Z) (w : list R) : R := (total (map (fun u => (u - average w) ^ 2)%R w) / IZR (Z.of_nat (length w) - ddof))%R.

(** at most 64 elements, one of them selected, or one selected among any 32 consecutive ones *)
Definition spread_out (sel : num -> bool) (a : list num) : Prop :=
  (length a <= 64 /\ exists u, In u a /\ sel u = true) \/
  (32 <= length a /\ forall i, i + 32 <= length a -> exists u, In u (firstn 32 (skipn i a)) /\ sel u = true).
Definition a_number (u : num) : bool := match u with Some _ => true | None => false end.
Definition a_number_within (lo hi : R) (il ih : bool) (u : num) : bool := match u with Some x => above lo il x && below hi ih x | None => false end.

Lemma kept_nan a : kept is_number a = numbers a.
Proof. unfold kept, numbers. induction a as [|[x|] a IH]; cbn [flat_map is_number]; congruence. Qed.
Lemma trim_within lo hi il ih u : trim (Some lo, Some hi) (il, ih) u = a_number_within lo hi il ih u.
Proof. unfold trim, f_trim. cbn. destruct u as [x|]; [|destruct il; reflexivity]. reflexivity. Qed.
Lemma kept_trim lo hi il ih a : kept (trim (Some lo, Some hi) (il, ih)) a = within lo hi il ih a.
Proof.
  unfold within. induction a as [|[x|] a IH]; [reflexivity| |exact IH]. cbn [kept flat_map numbers app filter].
  change (flat_map _ a) with (kept (trim (Some lo, Some hi) (il, ih)) a) at 1. rewrite trim_within, IH. cbn [a_number_within]. destruct (above lo il x && below hi ih x); reflexivity.
Qed.
Lemma spread_leaves p a : p None = false -> spread_out p a -> leaves_ok p a.
Proof.
  intros Hp HD blk Hb. assert (X : forall b, (exists u, In u b /\ p u = true) -> kept p b <> []).
  { intros b (u & Hu & Pu) E. assert (Hf : In u (filter p b)) by (apply filter_In; auto). rewrite (filter_kept p Hp), E in Hf. contradiction. }
  apply X. destruct (leaves_segments a blk Hb) as (u & v & E & H1 & H2). destruct HD as [[L H]|[L H]].
  - rewrite (H2 L). exact H.
  - destruct (le_lt_dec (length a) 64) as [S|S].
    + rewrite (H2 S). destruct (H 0) as (x & Hx & Px); [lia|]. exists x. split; [|exact Px]. rewrite <- (firstn_skipn 32 a). apply in_app_iff. left. exact Hx.
    + specialize (H1 S). destruct (H (length u)) as (x & Hx & Px); [rewrite E, !app_length; lia|]. exists x. split; [|exact Px].
      rewrite E, skipn_app, skipn_all, Nat.sub_diag in Hx. cbn [app skipn] in Hx. rewrite firstn_app in Hx.
      replace (32 - length blk) with 0 in Hx by lia. cbn [firstn] in Hx. rewrite app_nil_r in Hx.
      rewrite <- (firstn_skipn 32 blk). apply in_app_iff. left. exact Hx.
Qed.
Lemma spread_ext p q a : (forall u, p u = q u) -> spread_out p a -> spread_out q a.
Proof. intros E [[L (u & H1 & H2)]|[L H]]; [left|right]; split; auto; [exists u; rewrite <- E; auto|]. intros i Hi. destruct (H i Hi) as (u & H1 & H2). exists u. rewrite <- E. auto. Qed.
Lemma spread_formulas p ddof a : p None = false -> spread_out p a -> (ddof < Z.of_nat (length (kept p a)))%Z ->
  nvar ddof a p = Ok (Some (variance ddof (kept p a))) /\ nstd ddof a p = Ok (Some (sqrt (variance ddof (kept p a)))) /\
  nsem ddof a p = Ok (Some (sqrt (variance ddof (kept p a) / INR (length (kept p a))))).
Proof.
  intros Hp HD Hd. pose proof (spread_leaves p a Hp HD) as HL. pose proof (@nvar_n_kept p Hp ddof a HL Hd) as E.
  unfold nstd, nsem, nvar. rewrite E. cbn [omap bind fst]. split; [reflexivity|]. split; [reflexivity|]. unfold nofn. rewrite ndiv_some; [reflexivity|].
  apply not_0_INR. intros C. apply length_zero_iff_nil in C. exact (leaves_ok_kept HL C).
Qed.

Lemma split_l A (x y : list A) n : length x = n -> firstn n (x ++ y) = x.
Proof. intros <-. rewrite firstn_app, Nat.sub_diag, firstn_O, app_nil_r. apply firstn_all. Qed.
Lemma split_r A (x y : list A) n : length x = n -> skipn n (x ++ y) = y.
Proof. intros <-. rewrite skipn_app, Nat.sub_diag, skipn_all. reflexivity. Qed.
Lemma pairwise_one p x : length x = 64 -> pairwise_accumulate 64 (nblock p) ncomb x = nblock p x.
Proof. intros H. rewrite pairwise_unfold by lia. rewrite H. change (64 <=? 64) with true. reflexivity. Qed.

Lemma kept_none p X : (forall v, In v X -> p v = false) -> kept p X = [].
Proof.
  intros HX. induction X as [|v X IH]; [reflexivity|]. unfold kept. cbn [flat_map]. fold (kept p X). rewrite IH by (intros z Hz; apply HX; now right).
  destruct v as [x|]; [|reflexivity]. now rewrite (HX (Some x) (or_introl eq_refl)).
Qed.
Lemma kept_every p w : (forall x, In x w -> p (Some x) = true) -> kept p (map Some w) = w.
Proof.
  intros Hs. induction w as [|x w IH]; [reflexivity|]. unfold kept. cbn [map flat_map]. fold (kept p (map Some w)). rewrite IH by (intros z Hz; apply Hs; now right).
  now rewrite (Hs x (or_introl eq_refl)).
Qed.
Lemma nblock_none p X : p None = false -> (forall v, In v X -> p v = false) -> nblock p (map dup X) = (None, None, Some 0%R, 0).
Proof.
  intros Hn HX. unfold nblock, cov_block. rewrite map_dup_fst, map_dup_snd.
  change (mean_filter (Some 0%R) None nadd ndiv nofn false X p) with (nmean X p). rewrite (nmean_kept p Hn), (kept_none p X HX).
  assert (F : forall m st, fold_left (fun (st : num * nat) (xy : num * num) => if p (fst xy) && p (snd xy) then (nadd (fst st) (nmul (nsub (fst xy) m) (nsub (snd xy) m)), S (snd st)) else st)
    (map dup X) st = st).
  { intros m. induction X as [|v X IH]; intros st; [reflexivity|]. cbn [map fold_left dup fst snd]. rewrite (HX v (or_introl eq_refl)). cbn [andb].
    apply IH. intros z Hz. apply HX. now right. }
  rewrite F. reflexivity.
Qed.
Lemma ncomb_none (r : num * num * num * nat) c n : ncomb (None, None, c, n) r = (None, None, None, n + snd r).
Proof.
  destruct r as [[[m1 m2] c2] n2]. unfold ncomb, cov_combine, nofn, ndiv. cbn [snd].
  destruct (Req_EM_T (INR (n + n2)) 0); destruct c, c2, m1, m2; reflexivity.
Qed.
Lemma poisoned p ddof X w : length X = 64 -> length w = 64 -> p None = false -> (forall v, In v X -> p v = false) -> (forall x, In x w -> p (Some x) = true) ->
  nvar_n ddof (X ++ map Some w) p = Ok (None, 64).
Proof.
  intros HX Hw Hn Hu Hs. rewrite (@nvar_n_eq p ddof _) by (intros C; apply app_eq_nil in C; destruct C as [-> _]; discriminate).
  assert (E : pairwise_accumulate 64 (nblock p) ncomb (map dup (X ++ map Some w)) = (None, None, None, 64)).
  { rewrite pairwise_unfold by lia. rewrite map_length, app_length, map_length, HX, Hw. change (64 + 64 <=? 64) with false. cbn iota.
    change ((64 + 64) / 2) with 64. rewrite map_app.
    assert (LL : length (map dup X) = 64) by (now rewrite map_length).
    assert (LW : length (map dup (map Some w)) = 64) by (now rewrite !map_length).
    rewrite (split_l _ _ _ _ LL), (split_r _ _ _ _ LL), (pairwise_one _ _ LL), (pairwise_one _ _ LW), (nblock_none p X Hn Hu), ncomb_none.
    pose proof (kept_every p w Hs) as Kw. rewrite (nblock_ok p Hn) by (rewrite Kw; destruct w; discriminate). rewrite Kw. unfold lift. cbn [snd]. rewrite Hw. reflexivity. }
  rewrite E. destruct (Z.of_nat 64 - ddof <=? 0)%Z; reflexivity.
Qed.

(** nanmean and tmean are the mean of the numbers, resp. of the elements within the limits, for every array; NaN if there is none. *)
Theorem C114_means : forall (a : list num) (lo hi : R) (il ih : bool),
  nanmean a = (match numbers a with [] => None | w => Some (average w) end) /\
  tmean (Some lo, Some hi) (il, ih) a = (match within lo hi il ih a with [] => None | w => Some (average w) end).
Proof.
  intros a lo hi il ih. unfold nanmean, tmean. rewrite !nmean_kept, kept_nan, kept_trim; [auto| |reflexivity]. now rewrite trim_within.
Qed.
Print Assumptions C114_means.

(** nanvar, nanstd, nansem are the textbook formulas on the numbers of the array. Missing: arrays with long runs of NaN, see C114_refuted. *)
Theorem C114_nan_partial : forall (ddof : Z) (a : list num), spread_out a_number a -> (ddof < Z.of_nat (length (numbers a)))%Z ->
  let w := numbers a in
  nanvar ddof a = Ok (Some (variance ddof w)) /\ nanstd ddof a = Ok (Some (sqrt (variance ddof w))) /\
  nansem ddof a = Ok (Some (sqrt (variance ddof w / INR (length w)))).
Proof. intros ddof a HD Hd w. subst w. rewrite <- kept_nan in *. exact (spread_formulas is_number ddof a eq_refl HD Hd). Qed.
Print Assumptions C114_nan_partial.
(** tvar, tstd, tsem are the textbook formulas on the elements within the limits. *)
Theorem C114_trim_partial : forall (ddof : Z) (a : list num) (lo hi : R) (il ih : bool),
  spread_out (a_number_within lo hi il ih) a -> (ddof < Z.of_nat (length (within lo hi il ih a)))%Z ->
  let w := within lo hi il ih a in
  tvar ddof (Some lo, Some hi) (il, ih) a = Ok (Some (variance ddof w)) /\ tstd ddof (Some lo, Some hi) (il, ih) a = Ok (Some (sqrt (variance ddof w))) /\
  tsem ddof (Some lo, Some hi) (il, ih) a = Ok (Some (sqrt (variance ddof w / INR (length w)))).
Proof.
  intros ddof a lo hi il ih HD Hd w. subst w. rewrite <- kept_trim in *. apply spread_formulas; [now rewrite trim_within| |exact Hd].
  revert HD. apply spread_ext. intros u. now rewrite trim_within.
Qed.
Print Assumptions C114_trim_partial.

(** 64 NaNs (or 64 elements outside the limits) before 64 numbers: NaN, although the selected elements have a standard deviation. *)
Theorem C114_refuted : forall (w : list R) (ddof : Z), length w = 64 -> (ddof < 64)%Z ->
  nanstd ddof (repeat None 64 ++ map Some w) = Ok None /\ nansem ddof (repeat None 64 ++ map Some w) = Ok None /\
  (forall lo hi x, (x < lo)%R -> (forall u, In u w -> lo <= u <= hi)%R ->
     within lo hi true true (repeat (Some x) 64 ++ map Some w) = w /\
     tstd ddof (Some lo, Some hi) (true, true) (repeat (Some x) 64 ++ map Some w) = Ok None).
Proof.
  intros w ddof Hw Hd.
  assert (K : forall p u, p None = false -> p u = false -> (forall x, In x w -> p (Some x) = true) -> nvar_n ddof (repeat u 64 ++ map Some w) p = Ok (None, 64)).
  { intros p u Hn Hu Hs. apply (poisoned p ddof (repeat u 64) w); [apply repeat_length|exact Hw|exact Hn| |exact Hs]. intros v Hv. apply repeat_spec in Hv. now subst. }
  split; [|split].
  - unfold nanstd, nanvar, nvar. rewrite K; auto.
  - unfold nansem, nsem. rewrite K; auto.
  - intros lo hi x Hx Hi. split.
    + unfold within, numbers. rewrite flat_map_app, filter_app.
      assert (E1 : forall n, filter (fun y => above lo true y && below hi true y) (flat_map (fun u : num => match u with Some x => [x] | None => [] end) (repeat (Some x) n)) = []).
      { induction n as [|n IH]; [reflexivity|]. cbn [repeat flat_map app filter]. unfold above at 1. destruct (Rle_dec lo x); [lra|]. exact IH. }
      rewrite E1. cbn [app]. clear -Hi. induction w as [|y w IH]; [reflexivity|]. cbn [map flat_map app filter]. unfold above, below in *.
      destruct (Hi y (or_introl eq_refl)). destruct (Rle_dec lo y); [|lra]. destruct (Rle_dec y hi); [|lra]. cbn [andb]. f_equal. apply IH. intros z Hz. apply Hi. now right.
    + unfold tstd, tvar, nvar. rewrite K; auto.
      * rewrite trim_within. cbn. destruct (Rle_dec lo x); [lra|reflexivity].
      * intros y Hy. rewrite trim_within. cbn. destruct (Hi y Hy). destruct (Rle_dec lo y); [|lra]. destruct (Rle_dec y hi); [reflexivity|lra].
Qed.
Print Assumptions C114_refuted.

Example C114_nonvacuous : let a := [Some 1%R; None; Some 3%R; Some 9%R] in
  spread_out a_number a /\ numbers a = [1; 3; 9]%R /\ within 1 9 true false a = [1; 3]%R /\ spread_out (a_number_within 1 9 true false) a /\
  variance 1 [1; 3]%R = 2%R.
Proof.
  assert (W : forall x, above 1 true x = if Rle_dec 1 x then true else false) by reflexivity.
  split; [left; split; [cbn; lia|exists (Some 1%R); cbn; auto]|]. split; [reflexivity|]. split; [|split].
  - unfold within, above, below. cbn. repeat (destruct (Rle_dec _ _); try lra); repeat (destruct (Rlt_dec _ _); try lra); reflexivity.
  - left. split; [cbn; lia|]. exists (Some 1%R). split; [cbn; auto|]. cbn. destruct (Rle_dec 1 1); [|lra]. destruct (Rlt_dec 1 9); [reflexivity|lra].
  - unfold variance, average, total. cbn. field.
Qed.
