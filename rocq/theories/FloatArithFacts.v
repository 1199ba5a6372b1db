From Coq Require Import List Arith ZArith Reals Bool.
From Flocq Require Import Core Plus_error Relative.
From Verif Require Import Base Functional FunctionalProofs Numeric Stats PairwiseError FloatArith.
From Coq Require Import Lra Psatz Lia.
Import ListNotations.
Open Scope nat_scope.

Record rounding (u eta : R) (fmt : R -> Prop) (rnd : R -> R) : Prop := {
  u_pos : (0 <= u)%R;
  eta_pos : (0 <= eta)%R;
  rd_fmt : forall x, fmt (rnd x);
  rd_id : forall x, fmt x -> rnd x = x;
  rd_0 : fmt 0%R;
  rd_mono : forall x y, (x <= y)%R -> (rnd x <= rnd y)%R;
  rd_err : forall x, (Rabs (rnd x - x) <= u * Rabs x + eta)%R;
  rd_add : forall x y, fmt x -> fmt y -> (Rabs (rnd (x + y) - (x + y)) <= u * Rabs (x + y))%R
}.

Lemma flt_rounding (prec emin : Z) (choice : Z -> bool) : (0 < prec)%Z ->
  rounding (bpow radix2 (- prec)) (bpow radix2 (emin - 1)) (generic_format radix2 (FLT_exp emin prec)) (round radix2 (FLT_exp emin prec) (Znearest choice)).
Proof.
  intros Hp. assert (P : Prec_gt_0 prec) by exact Hp.
  assert (U : (/ 2 * bpow radix2 (- prec + 1) = bpow radix2 (- prec))%R).
  { replace (/ 2)%R with (bpow radix2 (-1)) by reflexivity. rewrite <- bpow_plus. f_equal. lia. }
  constructor.
  - apply bpow_ge_0.
  - apply bpow_ge_0.
  - intros x. apply generic_format_round; [apply FLT_exp_valid; exact P|apply valid_rnd_N].
  - intros x H. apply round_generic; [apply valid_rnd_N|exact H].
  - apply generic_format_0.
  - intros x y H. apply round_le; [apply FLT_exp_valid; exact P|apply valid_rnd_N|exact H].
  - intros x. destruct (error_N_FLT radix2 emin prec Hp choice x) as (e & t & He & Ht & _ & E). rewrite E.
    replace (x * (1 + e) + t - x)%R with (e * x + t)%R by ring. eapply Rle_trans; [apply Rabs_triang|]. apply Rplus_le_compat.
    + rewrite Rabs_mult. apply Rmult_le_compat_r; [apply Rabs_pos|]. rewrite <- U. exact He.
    + replace (emin - 1)%Z with (-1 + emin)%Z by lia. rewrite bpow_plus. exact Ht.
  - intros x y Hx Hy. destruct (@FLT_plus_error_N_ex radix2 emin prec P choice x y Hx Hy) as [eps [He Hr]]. rewrite Hr.
    replace ((x + y) * (1 + eps) - (x + y))%R with (eps * (x + y))%R by ring. rewrite Rabs_mult. apply Rmult_le_compat_r; [apply Rabs_pos|].
    eapply Rle_trans; [exact He|].
    assert (Hu : u_ro radix2 prec = bpow radix2 (- prec)) by (unfold u_ro; rewrite <- U; reflexivity).
    rewrite Hu. pose proof (bpow_gt_0 radix2 (- prec)) as G. apply Rmult_le_reg_r with (1 + bpow radix2 (- prec))%R; [lra|].
    unfold Rdiv. rewrite Rmult_assoc, Rinv_l by lra. nra.
Qed.
Lemma flt_integer (prec emin : Z) (n : Z) : (0 < prec)%Z -> (emin <= 0)%Z -> (Z.abs n <= 2 ^ prec)%Z -> generic_format radix2 (FLT_exp emin prec) (IZR n).
Proof.
  intros Hp He Hn. assert (P : Prec_gt_0 prec) by exact Hp. destruct (Z.eq_dec (Z.abs n) (2 ^ prec)) as [E|E].
  - assert (B : generic_format radix2 (FLT_exp emin prec) (bpow radix2 prec)).
    { apply generic_format_bpow. unfold FLT_exp. lia. }
    assert (EB : bpow radix2 prec = IZR (2 ^ prec)) by (rewrite <- (IZR_Zpower radix2) by lia; reflexivity).
    rewrite EB, <- E in B. destruct (Z.abs_spec n) as [[_ A]|[_ A]]; rewrite A in B; [exact B|]. apply generic_format_opp in B. rewrite <- opp_IZR, Z.opp_involutive in B. exact B.
  - apply generic_format_FLT. exists (Float radix2 n 0); cbn; [unfold F2R; cbn; ring| |lia]. change (Z.pow_pos 2 _) with 1%Z. lia.
Qed.

Section Facts.
Variables (u eta : R) (fmt : R -> Prop) (rnd : R -> R).
Hypothesis RD : rounding u eta fmt rnd.
Let Hu := u_pos _ _ _ _ RD.
Let He := eta_pos _ _ _ _ RD.
Local Open Scope R_scope.
Definition g (k : nat) : R := (1 + u) ^ k.
Lemma g_ge k : 1 <= g k. Proof. unfold g. induction k; cbn [pow]; [lra|]. nra. Qed.
Lemma gS k : g (S k) = (1 + u) * g k. Proof. reflexivity. Qed.
Lemma gmono j k : (j <= k)%nat -> g j <= g k. Proof. induction 1; [lra|]. rewrite gS. pose proof (g_ge m). nra. Qed.
Lemma g_pos k : 0 <= g k. Proof. pose proof (g_ge k). lra. Qed.

(** one more rounding of an approximation *)
Lemma rnd_step k x X A E : Rabs X <= A -> 0 <= E -> Rabs (x - X) <= (g k - 1) * A + E -> Rabs (rnd x - X) <= (g (S k) - 1) * A + (1 + u) * E + eta.
Proof.
  intros HX HE H. pose proof (rd_err _ _ _ _ RD x) as R1. rewrite gS. pose proof (g_ge k).
  assert (Hx : Rabs x <= A + ((g k - 1) * A + E)). { replace x with (X + (x - X)) by ring. eapply Rle_trans; [apply Rabs_triang|]. lra. }
  replace (rnd x - X) with ((rnd x - x) + (x - X)) by ring. eapply Rle_trans; [apply Rabs_triang|].
  pose proof (Rmult_le_compat_l u _ _ Hu Hx). nra.
Qed.

Lemma sum_err L l : (length l <= 64 * 2 ^ L)%nat -> Forall fmt l ->
  fmt (r_sum rnd l) /\ Rabs (r_sum rnd l - Rsum l) <= (g (64 + L) - 1) * Rsum_abs l.
Proof.
  intros Hl HF. unfold r_sum, sum, sum_filter.
  exact (pairwise_sum_error u Hu fmt (fl_add rnd) (rd_0 _ _ _ _ RD) (fun x y _ _ => rd_fmt _ _ _ _ RD (x + y)) (fun x y Hx Hy => rd_add _ _ _ _ RD x y Hx Hy) L l Hl HF).
Qed.

(** *** inner *)
Definition products (a b : list R) : list R := map (fun q => fst q * snd q) (combine a b).
Lemma pw_inner l : pairwise_accumulate PW_BLOCKSIZE (fun blk => fold_left (fun res xy => fl_add rnd res (fl_mul rnd (fst xy) (snd xy))) blk 0) (fl_add rnd) l =
  r_sum rnd (map (fun q => rnd (fst q * snd q)) l).
Proof.
  unfold r_sum, sum, sum_filter, filter_reduce_associative.
  remember (length l) as n eqn:Hn. revert l Hn. induction n as [n IH] using lt_wf_ind. intros l Hn.
  rewrite (pairwise_unfold PW_BLOCKSIZE _ _ l), (pairwise_unfold PW_BLOCKSIZE _ _ (map _ l)) by (unfold PW_BLOCKSIZE; lia). rewrite map_length, <- Hn. destruct (Nat.leb_spec n PW_BLOCKSIZE) as [H|H].
  - rewrite filter_reduce_spec, filter_all. cbn [fst]. generalize 0. clear. induction l as [|q l IH]; intros z; [reflexivity|]. cbn [map fold_left]. apply IH.
  - unfold PW_BLOCKSIZE in *. pose proof (Nat.div_mod n 2 ltac:(lia)). pose proof (Nat.mod_upper_bound n 2 ltac:(lia)).
    assert (L1 : length (firstn (n / 2) l) = (n / 2)%nat) by (rewrite firstn_length; lia).
    assert (L2 : length (skipn (n / 2) l) = (n - n / 2)%nat) by (rewrite skipn_length; lia).
    rewrite firstn_map, skipn_map.
    rewrite (IH (n / 2)%nat ltac:(lia) (firstn (n / 2) l) (eq_sym L1)), (IH (n - n / 2)%nat ltac:(lia) (skipn (n / 2) l) (eq_sym L2)).
    destruct (pairwise_accumulate 64 _ _ (map _ (firstn _ l))), (pairwise_accumulate 64 _ _ (map _ (skipn _ l))). reflexivity.
Qed.
Lemma rounded_products l :
  Rabs (Rsum (map (fun q : R * R => rnd (fst q * snd q)) l) - Rsum (map (fun q => fst q * snd q) l)) <= u * Rsum_abs (map (fun q => fst q * snd q) l) + INR (length l) * eta /\
  Rsum_abs (map (fun q : R * R => rnd (fst q * snd q)) l) <= (1 + u) * Rsum_abs (map (fun q => fst q * snd q) l) + INR (length l) * eta.
Proof.
  induction l as [|q l [I1 I2]]; [unfold Rsum, Rsum_abs; cbn; rewrite Rminus_0_r, Rabs_R0; lra|]. cbn [length map]. rewrite S_INR. unfold Rsum, Rsum_abs in *. cbn [fold_right].
  pose proof (rd_err _ _ _ _ RD (fst q * snd q)) as R1. set (p := fst q * snd q) in *. split.
  - match goal with |- Rabs (?a + ?b - (?c + ?d)) <= _ => replace (a + b - (c + d)) with ((a - c) + (b - d)) by ring end. eapply Rle_trans; [apply Rabs_triang|]. lra.
  - assert (Rabs (rnd p) <= Rabs p + (u * Rabs p + eta)). { replace (rnd p) with (p + (rnd p - p)) by ring. eapply Rle_trans; [apply Rabs_triang|]. lra. } lra.
Qed.
Lemma inner_err L a b : length a = length b -> (length a <= 64 * 2 ^ L)%nat -> exists s, r_inner rnd a b = Ok s /\
  Rabs (s - Rsum (products a b)) <= (g (65 + L) - 1) * Rsum_abs (products a b) + g (64 + L) * (INR (length a) * eta).
Proof.
  intros Hab Hl. unfold r_inner, inner, inner_op, pairwise_accumulate2, require. rewrite Hab, Nat.eqb_refl. eexists. split; [reflexivity|].
  assert (HC : length (combine a b) = length b) by (rewrite combine_length; lia).
  rewrite pw_inner. destruct (sum_err L (map (fun q => rnd (fst q * snd q)) (combine a b))) as [_ E].
  - rewrite map_length. lia.
  - apply Forall_forall. intros x Hx. apply in_map_iff in Hx. destruct Hx as [q [<- _]]. apply (rd_fmt _ _ _ _ RD).
  - destruct (rounded_products (combine a b)) as [P1 P2]. rewrite HC in *. unfold products. set (S1 := r_sum _ _) in *. set (S2 := Rsum (map _ _)) in *.
    replace (65 + L)%nat with (S (64 + L)) by lia. rewrite gS. pose proof (g_ge (64 + L)).
    match goal with |- Rabs (_ - ?X) <= _ => replace (S1 - X) with ((S1 - S2) + (S2 - X)) by ring end. eapply Rle_trans; [apply Rabs_triang|]. nra.
Qed.

(** *** mean *)
Lemma cnt_all (l : list R) : snd (filter_reduce_associative false l (fl_add rnd) f_all 0) = length l.
Proof.
  unfold filter_reduce_associative. apply (pairwise_ind PW_BLOCKSIZE _ _ (fun l r => snd r = length l)); [unfold PW_BLOCKSIZE; lia| |].
  - intros a _. now rewrite filter_reduce_spec, filter_all.
  - intros a b [x n] [y m] _ _. cbn. intros -> ->. now rewrite app_length.
Qed.
Lemma mean_err L nan l : l <> [] -> (length l <= 64 * 2 ^ L)%nat -> Forall fmt l -> fmt (INR (length l)) ->
  Rabs (r_mean rnd nan l - Rsum l / INR (length l)) <= (g (65 + L) - 1) * (Rsum_abs l / INR (length l)) + eta.
Proof.
  intros Hn Hl HF HI. unfold r_mean, mean, mean_filter. assert (N : (0 < length l)%nat) by (destruct l; [contradiction|cbn; lia]).
  destruct (Nat.eqb_spec (length l) 0) as [?|_]; [lia|].
  destruct (sum_err L l Hl HF) as [_ E]. unfold r_sum, sum in E. pose proof (cnt_all l) as C. unfold sum_filter in *.
  destruct (filter_reduce_associative false l (fl_add rnd) f_all 0) as [s c]. cbn [fst snd] in *. subst c. unfold fl_quot, fl_nat. rewrite (rd_id _ _ _ _ RD _ HI).
  assert (I : 0 < / INR (length l)) by (apply Rinv_0_lt_compat, lt_0_INR, N). unfold Rdiv.
  replace (65 + L)%nat with (S (64 + L)) by lia. eapply Rle_trans.
  { apply (rnd_step (64 + L) _ (Rsum l * / INR (length l)) (Rsum_abs l * / INR (length l)) 0); [| lra |].
    - rewrite Rabs_mult, (Rabs_right (/ _)) by lra. apply Rmult_le_compat_r; [lra|apply Rsum_le_abs].
    - rewrite <- Rmult_minus_distr_r, Rabs_mult, (Rabs_right (/ _)) by lra. rewrite Rplus_0_r, <- Rmult_assoc. apply Rmult_le_compat_r; [lra|exact E]. }
  lra.
Qed.

(** *** cumsum *)
Lemma cumsum_err l : Forall fmt l -> forall k x, nth_error (r_cumsum rnd l) k = Some x ->
  Rabs (x - Rsum (firstn (S k) l)) <= (g k - 1) * Rsum_abs (firstn (S k) l).
Proof.
  intros HF k x E. unfold r_cumsum, cumsum, partial_sum in E. destruct l as [|y l]; [destruct k; discriminate E|].
  inversion HF as [|? ? Fy Fl]; subst. destruct k as [|k].
  - injection E as <-. unfold Rsum, Rsum_abs. cbn [firstn fold_right]. replace (y - (y + 0)) with 0 by ring. rewrite Rabs_R0. pose proof (Rabs_pos y). pose proof (g_ge 0). nra.
  - cbn [nth_error] in E. assert (Hk : (k < length l)%nat).
    { assert (N : nth_error (partial_sum_from (fl_add rnd) y l) k <> None) by congruence. apply nth_error_Some in N. now rewrite partial_sum_from_length in N. }
    rewrite partial_sum_from_nth in E by exact Hk. injection E as <-.
    assert (FF : Forall fmt (firstn (S k) l)) by (rewrite <- (firstn_skipn (S k) l) in Fl; now apply Forall_app in Fl).
    pose proof (fold_good u Hu fmt (fl_add rnd) (fun x y _ _ => rd_fmt _ _ _ _ RD (x + y)) (fun x y Hx Hy => rd_add _ _ _ _ RD x y Hx Hy) (firstn (S k) l) FF [y] y 0%nat) as G.
    destruct G as [_ G].
    { split; [exact Fy|]. unfold Rsum, Rsum_abs. cbn. replace (y - (y + 0)) with 0 by ring. rewrite Rabs_R0. lra. }
    rewrite firstn_length in G. replace (0 + Nat.min (S k) (length l))%nat with (S k) in G by lia. exact G.
Qed.

(** *** polyval *)
Fixpoint peval (x : R) (c : list R) : R := match c with [] => 0 | c0 :: r => c0 + x * peval x r end.
Fixpoint geo (q : R) (n : nat) : R := match n with O => 0 | S m => 1 + q * geo q m end.
Lemma peval_abs x c : Rabs (peval x c) <= peval (Rabs x) (map Rabs c) /\ 0 <= peval (Rabs x) (map Rabs c).
Proof.
  induction c as [|c0 c [I1 I2]]; cbn [peval map]; [rewrite Rabs_R0; lra|]. pose proof (Rabs_pos x). pose proof (Rabs_pos c0). split; [|nra].
  eapply Rle_trans; [apply Rabs_triang|]. rewrite Rabs_mult. nra.
Qed.
Lemma geo_pos q n : 0 <= q -> 0 <= geo q n. Proof. intros. induction n; cbn [geo]; nra. Qed.
Lemma polyval_cons_r x c0 c : r_polyval rnd x (c0 :: c) = fl_fma rnd (r_polyval rnd x c) x c0.
Proof. unfold r_polyval. cbn [rev]. rewrite fold_left_app. reflexivity. Qed.
Lemma polyval_err x c : Rabs (r_polyval rnd x c - peval x c) <= (g (length c) - 1) * peval (Rabs x) (map Rabs c) + eta * geo ((1 + u) * Rabs x) (length c).
Proof.
  induction c as [|c0 c IH]; [unfold r_polyval; cbn; rewrite Rminus_0_r, Rabs_R0; lra|].
  rewrite polyval_cons_r. unfold fl_fma. cbn [length]. destruct (peval_abs x c) as [A1 A2]. set (r := r_polyval rnd x c) in *. set (n := length c) in *.
  set (E := eta * (Rabs x * geo ((1 + u) * Rabs x) n)). pose proof (Rabs_pos x). pose proof (Rabs_pos c0). pose proof (g_ge n).
  assert (G : 0 <= geo ((1 + u) * Rabs x) n) by (apply geo_pos; nra).
  eapply Rle_trans; [apply (rnd_step n _ (peval x (c0 :: c)) (peval (Rabs x) (map Rabs (c0 :: c))) E)|].
  - apply peval_abs.
  - unfold E. apply Rmult_le_pos; [exact He|]. apply Rmult_le_pos; assumption.
  - cbn [peval map]. replace (r * x + c0 - (c0 + x * peval x c)) with (x * (r - peval x c)) by ring. rewrite Rabs_mult. unfold E. nra.
  - unfold E. cbn [geo]. apply Req_le. ring.
Qed.

(** *** trapz *)
Fixpoint trapezoid (f : list R) (dx : R) : R := match f with x :: (y :: _) as r => dx * (x + y) / 2 + trapezoid r dx | _ => 0 end.
Lemma trapezoid_split m : forall x y dx, trapezoid (x :: m ++ [y]) dx = dx / 2 * (x + 2 * Rsum m + y).
Proof.
  induction m as [|z m IH]; intros x y dx; [unfold Rsum; cbn; field|]. change ((z :: m) ++ [y]) with (z :: (m ++ [y])).
  change (trapezoid (x :: z :: (m ++ [y])) dx) with (dx * (x + z) / 2 + trapezoid (z :: (m ++ [y])) dx). rewrite IH. unfold Rsum. cbn [fold_right]. field.
Qed.
Lemma abs_sum m : Rsum (map Rabs m) = Rsum_abs m.
Proof. unfold Rsum, Rsum_abs. induction m as [|x m IH]; cbn [map fold_right]; [reflexivity|now rewrite IH]. Qed.
Lemma add_step k x y X Y A B : fmt x -> fmt y -> Rabs X <= A -> Rabs Y <= B -> Rabs (x - X) <= (g k - 1) * A -> Rabs (y - Y) <= (g k - 1) * B ->
  Rabs (fl_add rnd x y - (X + Y)) <= (g (S k) - 1) * (A + B).
Proof. exact (step_err u Hu fmt (fl_add rnd) (fun x y Hx Hy => rd_add _ _ _ _ RD x y Hx Hy) k x y X Y A B). Qed.
Lemma self_err k x : Rabs (x - x) <= (g k - 1) * Rabs x.
Proof. replace (x - x) with 0 by ring. rewrite Rabs_R0. pose proof (g_ge k). pose proof (Rabs_pos x). nra. Qed.
Lemma trapz_err L f dx : (2 <= length f)%nat -> (length f <= 64 * 2 ^ L)%nat -> Forall fmt f -> exists s, r_trapz rnd f dx = Ok s /\
  Rabs (s - trapezoid f dx) <= (g (69 + L) - 1) * trapezoid (map Rabs f) (Rabs dx) + eta * (1 + 2 * g (68 + L) * trapezoid (map Rabs f) 1).
Proof.
  intros H2 Hl HF. destruct f as [|x f]; [cbn in H2; lia|]. destruct (exists_last (l := f)) as [m [y ->]]; [intros ->; cbn in H2; lia|].
  assert (Hm : (length m <= 64 * 2 ^ L)%nat) by (cbn [length] in Hl; rewrite app_length in Hl; cbn in Hl; lia).
  inversion HF as [|? ? Fx F1]; subst. apply Forall_app in F1. destruct F1 as [Fm Fy]. inversion Fy as [|? ? Fy1 _]; subst.
  assert (LN : (length (x :: m ++ [y]) - 1 = S (length m))%nat) by (cbn [length]; rewrite app_length; cbn; lia).
  unfold r_trapz, trapz. change (length (x :: m ++ [y]) =? 0) with false. cbv iota. rewrite LN.
  change (at_ub (x :: m ++ [y]) 0) with (Ok x). cbn [bind].
  unfold sum_range. replace (S (length m) <? 1) with false by (symmetry; apply Nat.ltb_ge; lia). cbn [bind skipn Nat.sub]. rewrite Nat.sub_0_r.
  rewrite firstn_app, Nat.sub_diag, firstn_all. cbn [firstn]. rewrite app_nil_r. change (sum 0 (fl_add rnd) false m) with (r_sum rnd m).
  replace (at_ub (x :: m ++ [y]) (S (length m))) with (Ok y) by (unfold at_ub; cbn [nth_error]; rewrite nth_error_app2, Nat.sub_diag by lia; reflexivity).
  cbn [bind]. eexists. split; [reflexivity|].
  rewrite (trapezoid_split m x y dx). cbn [map]. rewrite map_app. cbn [map]. rewrite (trapezoid_split (map Rabs m) (Rabs x) (Rabs y)), (trapezoid_split (map Rabs m) (Rabs x) (Rabs y) 1), abs_sum.
  destruct (sum_err L m Hm Fm) as [Fs Es]. set (s := r_sum rnd m) in *. set (M := Rsum m) in *. set (A := Rsum_abs m) in *.
  assert (HM : Rabs M <= A) by apply Rsum_le_abs.
  assert (E1 : Rabs (fl_mul rnd 2 s - (M + M)) <= (g (65 + L) - 1) * (A + A)).
  { replace (fl_mul rnd 2 s) with (fl_add rnd s s) by (unfold fl_add, fl_mul; f_equal; ring). apply (add_step (64 + L)); assumption. }
  assert (E2 : Rabs (fl_add rnd x (fl_mul rnd 2 s) - (x + (M + M))) <= (g (66 + L) - 1) * (Rabs x + (A + A))).
  { apply (add_step (65 + L)); [exact Fx|apply (rd_fmt _ _ _ _ RD)|lra| |apply self_err|exact E1]. eapply Rle_trans; [apply Rabs_triang|]. lra. }
  assert (E3 : Rabs (fl_add rnd (fl_add rnd x (fl_mul rnd 2 s)) y - (x + (M + M) + y)) <= (g (67 + L) - 1) * (Rabs x + (A + A) + Rabs y)).
  { apply (add_step (66 + L)); [apply (rd_fmt _ _ _ _ RD)|exact Fy1| |lra|exact E2|apply self_err]. eapply Rle_trans; [apply Rabs_triang|]. pose proof (Rabs_triang M M). lra. }
  set (S1 := fl_add rnd (fl_add rnd x (fl_mul rnd 2 s)) y) in *. set (S0 := x + (M + M) + y) in *. set (T := Rabs x + (A + A) + Rabs y) in *.
  assert (HS : Rabs S0 <= T). { unfold S0, T. eapply Rle_trans; [apply Rabs_triang|]. apply Rplus_le_compat_r. eapply Rle_trans; [apply Rabs_triang|]. pose proof (Rabs_triang M M). lra. }
  assert (HT : 0 <= T) by (pose proof (Rabs_pos S0); lra).
  set (h := fl_mul rnd (/ 2) dx). assert (Eh : Rabs (h - dx / 2) <= u * Rabs (dx / 2) + eta).
  { unfold h, fl_mul. replace (dx / 2) with (/ 2 * dx) by field. apply (rd_err _ _ _ _ RD). }
  set (H := Rabs (dx / 2)) in *. assert (HH : 0 <= H) by apply Rabs_pos.
  assert (Hh : Rabs h <= (1 + u) * H + eta). { replace h with (dx / 2 + (h - dx / 2)) by ring. eapply Rle_trans; [apply Rabs_triang|]. fold H. lra. }
  pose proof (g_ge (67 + L)) as G67. replace (68 + L)%nat with (S (67 + L)) by lia. rewrite gS. set (G := g (67 + L)) in *.
  assert (EP : Rabs (h * S1 - dx / 2 * S0) <= (g (S (67 + L)) - 1) * (H * T) + eta * (G * T)).
  { replace (h * S1 - dx / 2 * S0) with (h * (S1 - S0) + (h - dx / 2) * S0) by ring. eapply Rle_trans; [apply Rabs_triang|]. rewrite !Rabs_mult. rewrite gS. fold G.
    assert (P1 : Rabs h * Rabs (S1 - S0) <= ((1 + u) * H + eta) * ((G - 1) * T)) by (apply Rmult_le_compat; try apply Rabs_pos; assumption).
    assert (P2 : Rabs (h - dx / 2) * Rabs S0 <= (u * H + eta) * T) by (apply Rmult_le_compat; try apply Rabs_pos; assumption).
    eapply Rle_trans; [apply Rplus_le_compat; [exact P1|exact P2]|]. apply Req_le. ring. }
  replace (x + 2 * M + y) with S0 by (unfold S0; ring).
  replace (Rabs dx / 2 * (Rabs x + 2 * A + Rabs y)) with (H * T).
  2: { unfold H, T. unfold Rdiv. rewrite Rabs_mult, (Rabs_right (/ 2)) by lra. ring. }
  replace (1 / 2 * (Rabs x + 2 * A + Rabs y)) with (T / 2) by (unfold T; field).
  eapply Rle_trans; [apply (rnd_step (S (67 + L)) (h * S1) (dx / 2 * S0) (H * T) (eta * (G * T)))|].
  - rewrite Rabs_mult. apply Rmult_le_compat; try apply Rabs_pos; [apply Rle_refl|exact HS].
  - apply Rmult_le_pos; [exact He|]. apply Rmult_le_pos; lra.
  - exact EP.
  - replace (S (S (67 + L))) with (69 + L)%nat by lia. apply Req_le. field.
Qed.

(** *** prod, when nothing underflows *)
Definition Rprod (l : list R) : R := fold_right Rmult 1 l.
Lemma Rprod_app a b : Rprod (a ++ b) = Rprod a * Rprod b.
Proof. unfold Rprod. induction a as [|x a IH]; cbn [app fold_right]; [ring|]. rewrite IH. ring. Qed.
Lemma mul_step j k x y X Y : eta = 0 -> Rabs (x - X) <= (g j - 1) * Rabs X -> Rabs (y - Y) <= (g k - 1) * Rabs Y ->
  Rabs (fl_mul rnd x y - X * Y) <= (g (S (j + k)) - 1) * Rabs (X * Y).
Proof.
  intros H0 Hx Hy. eapply Rle_trans; [apply (rnd_step (j + k) (x * y) (X * Y) (Rabs (X * Y)) 0)|rewrite H0; lra]; [lra|lra|].
  rewrite Rplus_0_r. replace (g (j + k)) with (g j * g k) by (unfold g; now rewrite pow_add).
  replace (x * y - X * Y) with ((x - X) * (y - Y) + (x - X) * Y + X * (y - Y)) by ring. rewrite Rabs_mult.
  pose proof (g_ge j). pose proof (g_ge k). pose proof (Rabs_pos X). pose proof (Rabs_pos Y). pose proof (Rabs_pos (x - X)). pose proof (Rabs_pos (y - Y)).
  eapply Rle_trans; [apply Rabs_triang|]. eapply Rle_trans; [apply Rplus_le_compat_r, Rabs_triang|]. rewrite !Rabs_mult.
  assert (P1 : Rabs (x - X) * Rabs (y - Y) <= ((g j - 1) * Rabs X) * ((g k - 1) * Rabs Y)) by (apply Rmult_le_compat; assumption).
  assert (P2 : Rabs (x - X) * Rabs Y <= ((g j - 1) * Rabs X) * Rabs Y) by (apply Rmult_le_compat_r; assumption).
  assert (P3 : Rabs X * Rabs (y - Y) <= Rabs X * ((g k - 1) * Rabs Y)) by (apply Rmult_le_compat_l; assumption).
  eapply Rle_trans; [apply Rplus_le_compat; [apply Rplus_le_compat; [exact P1|exact P2]|exact P3]|]. apply Req_le. ring.
Qed.
Lemma prod_err l : eta = 0 -> Forall fmt l -> Rabs (r_prod rnd l - Rprod l) <= (g (length l - 1) - 1) * Rabs (Rprod l).
Proof.
  intros H0. unfold r_prod, prod, prod_filter, filter_reduce_associative.
  apply (pairwise_ind PW_BLOCKSIZE _ _ (fun l r => Forall fmt l -> Rabs (fst r - Rprod l) <= (g (length l - 1) - 1) * Rabs (Rprod l))); [unfold PW_BLOCKSIZE; lia| |].
  - intros a _ HF. rewrite filter_reduce_spec, filter_all. cbn [fst]. destruct HF as [|x a Fx Fa]; [exact (self_err 0 1)|].
    assert (F : forall pre s k, Rabs (s - Rprod pre) <= (g k - 1) * Rabs (Rprod pre) -> Rabs (fold_left (fl_mul rnd) a s - Rprod (pre ++ a)) <= (g (k + length a) - 1) * Rabs (Rprod (pre ++ a))).
    { induction Fa as [|z a Fz _ IH]; intros pre s k Hs; [rewrite app_nil_r, Nat.add_0_r; exact Hs|]. cbn [fold_left length].
      replace (pre ++ z :: a) with ((pre ++ [z]) ++ a) by (now rewrite <- app_assoc). replace (k + S (length a))%nat with (S k + length a)%nat by lia. apply IH.
      rewrite Rprod_app. unfold Rprod at 2 4. cbn [fold_right]. rewrite Rmult_1_r. replace (S k) with (S (k + 0)) by lia. apply mul_step; [exact H0|exact Hs|apply self_err]. }
    cbn [fold_left length]. replace (fl_mul rnd 1 x) with x by (unfold fl_mul; rewrite Rmult_1_l; symmetry; now apply (rd_id _ _ _ _ RD)).
    replace (S (length a) - 1)%nat with (0 + length a)%nat by lia. apply (F [x] x 0%nat). unfold Rprod. cbn [fold_right]. rewrite Rmult_1_r. apply self_err.
  - intros a b [x n] [y m] H1 H2 Ha Hb HF. apply Forall_app in HF. destruct HF as [Fa Fb]. cbn [fst] in *. rewrite Rprod_app, app_length. unfold PW_BLOCKSIZE in H1.
    replace (length a + length b - 1)%nat with (S ((length a - 1) + (length b - 1))) by lia. apply mul_step; auto.
Qed.
End Facts.
Lemma flx_rounding (prec : Z) (choice : Z -> bool) : (0 < prec)%Z ->
  rounding (bpow radix2 (- prec)) 0 (generic_format radix2 (FLX_exp prec)) (round radix2 (FLX_exp prec) (Znearest choice)).
Proof.
  intros Hp. assert (P : Prec_gt_0 prec) by exact Hp.
  assert (U : (/ 2 * bpow radix2 (- prec + 1) = bpow radix2 (- prec))%R).
  { replace (/ 2)%R with (bpow radix2 (-1)) by reflexivity. rewrite <- bpow_plus. f_equal. lia. }
  constructor.
  - apply bpow_ge_0.
  - apply Rle_refl.
  - intros x. apply generic_format_round; [apply FLX_exp_valid; exact P|apply valid_rnd_N].
  - intros x H. apply round_generic; [apply valid_rnd_N|exact H].
  - apply generic_format_0.
  - intros x y H. apply round_le; [apply FLX_exp_valid; exact P|apply valid_rnd_N|exact H].
  - intros x. rewrite <- U, Rplus_0_r. apply relative_error_N_FLX. exact Hp.
  - intros x y _ _. rewrite <- U. apply relative_error_N_FLX. exact Hp.
Qed.
