(** C115: the computed variance is never negative. *)
From Coq Require Import List Arith ZArith Reals Bool.
From Flocq Require Import Core.
From Coq Require PrimFloat Uint63.
From Verif Require Import Base Functional FunctionalProofs Numeric Stats StatsVar FloatStats.
From Coq Require Import Lra Psatz Lia.
Import ListNotations.
Open Scope nat_scope.

(** not a finite number, or at least 0 *)
Definition not_negative (x : option R) : Prop := match x with None => True | Some a => (0 <= a)%R end.

Section Facts.
Variable rnd : R -> R.
Variable overflows : R -> bool.
Hypothesis rnd_mono : forall x y, (x <= y)%R -> (rnd x <= rnd y)%R.
Hypothesis rnd_0 : rnd 0%R = 0%R.
Notation fv := (fl_val rnd overflows).
Notation fop := (fl_op rnd overflows).
Lemma rnd_pos x : (0 <= x -> 0 <= rnd x)%R. Proof. intros H. rewrite <- rnd_0. now apply rnd_mono. Qed.
Lemma rnd_neg x : (x <= 0 -> rnd x <= 0)%R. Proof. intros H. rewrite <- rnd_0. now apply rnd_mono. Qed.
Lemma fv_pos x : (0 <= x)%R -> not_negative (fv x).
Proof. intros H. unfold fl_val. destruct (overflows (rnd x)); [exact I|]. exact (rnd_pos x H). Qed.
Lemma add_nn x y : not_negative x -> not_negative y -> not_negative (fop Rplus x y).
Proof. destruct x, y; cbn; auto. intros. apply fv_pos. lra. Qed.
Lemma mul_nn x y : not_negative x -> not_negative y -> not_negative (fop Rmult x y).
Proof. destruct x, y; cbn; auto. intros. apply fv_pos. nra. Qed.
Lemma div_nn x y : not_negative x -> not_negative y -> not_negative (fl_div rnd overflows x y).
Proof.
  destruct x as [x|], y as [y|]; cbn; auto. intros Hx Hy. destruct (Req_EM_T y 0); [exact I|]. apply fv_pos. unfold Rdiv.
  assert (0 < / y)%R by (apply Rinv_0_lt_compat; lra). nra.
Qed.
Lemma ofn_nn n : not_negative (fl_ofn rnd overflows n). Proof. apply fv_pos, pos_INR. Qed.
Lemma ofz_nn z : (0 <= z)%Z -> not_negative (fl_ofz rnd overflows z). Proof. intros H. apply fv_pos. now apply IZR_le. Qed.
Lemma square_nn d : not_negative (fop Rmult d d).
Proof. destruct d as [d|]; cbn; [|exact I]. apply fv_pos. apply Rle_0_sqr. Qed.
(** (k * d) * d with k >= 0, rounded twice *)
Lemma scaled_square_nn k d : not_negative k -> not_negative (fop Rmult (fop Rmult k d) d).
Proof.
  destruct k as [k|], d as [d|]; cbn; auto. intros Hk. unfold fl_val at 1. destruct (overflows (rnd (k * d))); [exact I|]. cbn. apply fv_pos.
  destruct (Rle_dec 0 d) as [Hd|Hd].
  - pose proof (rnd_pos (k * d)). nra.
  - pose proof (rnd_neg (k * d)). nra.
Qed.
Definition twin (r : option R * option R * option R * nat) : Prop := let '(m1, m2, c, _) := r in m1 = m2 /\ not_negative c.
Definition duplicated (l : list (option R * option R)) : Prop := Forall (fun q => fst q = snd q) l.
Lemma block_twin p l : duplicated l -> twin (cov_block (Some 0%R) None (fop Rplus) (fop Rminus) (fop Rmult) (fl_div rnd overflows) (fun x => x) (fl_ofn rnd overflows) false p l).
Proof.
  intros H. unfold cov_block. assert (E : map snd l = map fst l). { apply map_ext_in. intros q Hq. unfold duplicated in H. rewrite Forall_forall in H. now rewrite H. }
  rewrite E. generalize (mean_filter (Some 0%R) None (fop Rplus) (fl_div rnd overflows) (fl_ofn rnd overflows) false (map fst l) p). intros m. clear E.
  assert (F : forall st : option R * nat, not_negative (fst st) -> not_negative (fst (fold_left (fun (st : option R * nat) (xy : option R * option R) =>
    if p (fst xy) && p (snd xy) then (fop Rplus (fst st) (fop Rmult (fop Rminus (fst xy) m) (fop Rminus (snd xy) m)), S (snd st)) else st) l st))).
  { induction H as [|q l Hq _ IH]; intros st Hst; [exact Hst|]. cbn [fold_left]. apply IH. destruct (p (fst q) && p (snd q)); [|exact Hst]. cbn [fst]. apply add_nn; [exact Hst|]. rewrite Hq. apply square_nn. }
  specialize (F (Some 0%R, 0)). cbn [fst] in F. specialize (F (Rle_refl 0)).
  destruct (fold_left _ l _) as [res cnt]. cbn [fst] in F. split; [reflexivity|exact F].
Qed.
Lemma combine_twin r1 r2 : twin r1 -> twin r2 -> twin (cov_combine (Some 1%R) (fop Rplus) (fop Rminus) (fop Rmult) (fl_div rnd overflows) (fun x => x) (fl_ofn rnd overflows) r1 r2).
Proof.
  destruct r1 as [[[m1 m1'] c1] n1], r2 as [[[m2 m2'] c2] n2]. cbn [twin]. intros [-> H1] [-> H2]. unfold cov_combine. cbn [twin]. split; [reflexivity|].
  apply add_nn; [apply add_nn; assumption|]. apply scaled_square_nn. apply div_nn; [apply mul_nn; apply ofn_nn|apply ofn_nn].
Qed.
Lemma pairwise_twin p l : duplicated l -> twin (pairwise_accumulate 64
  (cov_block (Some 0%R) None (fop Rplus) (fop Rminus) (fop Rmult) (fl_div rnd overflows) (fun x => x) (fl_ofn rnd overflows) false p)
  (cov_combine (Some 1%R) (fop Rplus) (fop Rminus) (fop Rmult) (fl_div rnd overflows) (fun x => x) (fl_ofn rnd overflows)) l).
Proof.
  apply (pairwise_ind 64 _ _ (fun l r => duplicated l -> twin r)); [lia| |].
  - intros a _ H. now apply block_twin.
  - intros a b x y _ _ Ha Hb H. apply Forall_app in H. destruct H. apply combine_twin; auto.
Qed.
Lemma var_nn ddof a p v n : fl_var_n rnd overflows ddof a p = Ok (v, n) -> not_negative v.
Proof.
  unfold fl_var_n, var_filter, covariance_filter, require. rewrite Nat.eqb_refl. destruct a as [|u a0]; [intros [= <- _]; exact I|]. set (a := u :: a0).
  replace (length a =? 0) with false by reflexivity. unfold pairwise_accumulate2, require. rewrite Nat.eqb_refl. cbn [bind].
  assert (D : duplicated (combine a a)). { unfold duplicated. generalize a. clear. induction a as [|u a IH]; cbn; auto. }
  pose proof (pairwise_twin p (combine a a) D) as TW. destruct (pairwise_accumulate 64 _ _ (combine a a)) as [[[m1 m2] c] k]. destruct TW as [_ Hc].
  destruct (Z.leb_spec (Z.of_nat k - ddof) 0); intros E; injection E as <- <-; [exact I|]. apply div_nn; [exact Hc|]. apply ofz_nn. lia.
Qed.
Lemma sqrt_of_nn x : not_negative x -> match x with None => fl_sqrt rnd overflows x = None | Some a => fl_sqrt rnd overflows x = fv (sqrt a) end.
Proof. destruct x as [a|]; cbn; [|reflexivity]. intros H. destruct (Rlt_dec a 0); [lra|reflexivity]. Qed.
End Facts.

(** For every rounding that is monotone and keeps 0 (in particular every IEEE rounding mode and format, with or without overflow), every array, filter and
    ddof: the computed variance is not negative, so std and sem never take the root of a negative number: they are the rounded root of a
    number, or come from a variance that is not finite. *)
Theorem C115_variance : forall (rnd : R -> R) (overflows : R -> bool),
  (forall x y, (x <= y)%R -> (rnd x <= rnd y)%R) -> rnd 0%R = 0%R ->
  forall (ddof : Z) (a : list (option R)) (p : option R -> bool) (v : option R) (n : nat),
  fl_var_n rnd overflows ddof a p = Ok (v, n) ->
  not_negative v /\ fl_var rnd overflows ddof a p = Ok v /\
  fl_std rnd overflows ddof a p = Ok (match v with None => None | Some x => fl_val rnd overflows (sqrt x) end) /\
  (forall s, fl_std rnd overflows ddof a p = Ok s -> not_negative s) /\
  let rounded := fun x => if overflows (rnd x) then None else Some (rnd x) in
  fl_sem rnd overflows ddof a p = Ok (match v, rounded (INR n) with
    | Some x, Some m => if Req_EM_T m 0 then None else match rounded (x / m)%R with Some w => rounded (sqrt w) | None => None end
    | _, _ => None end).
Proof.
  intros rnd overflows M Z0 ddof a p v n E. pose proof (var_nn rnd overflows M Z0 ddof a p v n E) as Hv. split; [exact Hv|].
  assert (Ev : fl_var rnd overflows ddof a p = Ok v) by (unfold fl_var; rewrite E; reflexivity).
  assert (Es : fl_std rnd overflows ddof a p = Ok (match v with None => None | Some x => fl_val rnd overflows (sqrt x) end)).
  { unfold fl_std. rewrite Ev. cbn [omap bind]. pose proof (sqrt_of_nn rnd overflows v Hv) as S. destruct v; rewrite S; reflexivity. }
  split; [exact Ev|]. split; [exact Es|]. split.
  - intros s Hs. rewrite Es in Hs. injection Hs as <-. destruct v as [x|]; [|exact I]. apply fv_pos; [exact M|exact Z0|apply sqrt_pos].
  - intros rounded. unfold fl_sem. rewrite E. cbn [bind]. f_equal.
    assert (Hd : not_negative (fl_div rnd overflows v (fl_ofn rnd overflows n))) by (apply div_nn; [exact M|exact Z0|exact Hv|apply ofn_nn; [exact M|exact Z0]]).
    pose proof (sqrt_of_nn rnd overflows _ Hd) as S.
    assert (S' : fl_sqrt rnd overflows (fl_div rnd overflows v (fl_ofn rnd overflows n)) = match fl_div rnd overflows v (fl_ofn rnd overflows n) with Some w => rounded (sqrt w) | None => None end)
      by (destruct (fl_div rnd overflows v (fl_ofn rnd overflows n)); exact S).
    rewrite S'. destruct v as [x|]; [|reflexivity]. change (fl_ofn rnd overflows n) with (rounded (INR n)). destruct (rounded (INR n)) as [m|]; [|reflexivity]. cbn [fl_div]. now destruct (Req_EM_T m 0).
Qed.
Print Assumptions C115_variance.

(** binary64, any rounding direction that IEEE allows, overflow above 2^1024 - 2^970 *)
Theorem C115_variance_binary64 : forall (choice : R -> Z) (V : Valid_rnd choice) (ddof : Z) (a : list (option R)) (p : option R -> bool) (v : option R) (n : nat),
  let rnd := round radix2 (FLT_exp (-1074) 53) choice in
  let overflows := fun x => if Rlt_dec (bpow radix2 1024 - bpow radix2 970) (Rabs x) then true else false in
  fl_var_n rnd overflows ddof a p = Ok (v, n) -> not_negative v.
Proof.
  intros choice V ddof a p v n rnd overflows E.
  apply (fun M Z0 => var_nn rnd overflows M Z0 ddof a p v n E).
  - intros x y H. now apply round_le; [apply FLT_exp_valid; unfold Prec_gt_0; lia| |].
  - apply round_0. exact V.
Qed.
Print Assumptions C115_variance_binary64.

(** What does not hold in binary64: ten times 0.1 has a mean below its smallest element and a variance that is not 0. *)
Definition f64_of_nat (n : nat) : PrimFloat.float := PrimFloat.of_uint63 (Uint63.of_Z (Z.of_nat n)).
Definition f64_of_Z (z : Z) : PrimFloat.float := PrimFloat.of_uint63 (Uint63.of_Z z).
Definition f64_mean (x : list PrimFloat.float) : PrimFloat.float := mean PrimFloat.zero PrimFloat.nan PrimFloat.add PrimFloat.div f64_of_nat false x.
Definition f64_var (ddof : Z) (x : list PrimFloat.float) : outcome PrimFloat.float :=
  var PrimFloat.zero PrimFloat.one PrimFloat.nan PrimFloat.infinity PrimFloat.add PrimFloat.sub PrimFloat.mul PrimFloat.div (fun x => x) f64_of_nat f64_of_Z
    false (fun x => x) ddof x.
Theorem C115_constant_refuted : exists (c : PrimFloat.float) (x : list PrimFloat.float) v,
  (forall y, In y x -> y = c) /\ x <> [] /\ PrimFloat.ltb (f64_mean x) c = true /\ f64_var 0 x = Ok v /\ PrimFloat.ltb PrimFloat.zero v = true.
Proof.
  set (c := PrimFloat.div (f64_of_nat 1) (f64_of_nat 10)).
  exists c, (repeat c 10). eexists. split; [intros y; apply repeat_spec|]. split; [discriminate|]. split; [vm_compute; reflexivity|].
  split; [vm_compute; reflexivity|vm_compute; reflexivity].
Qed.
Print Assumptions C115_constant_refuted.

Example C115_nonvacuous : (forall x y : R, (x <= y)%R -> (x <= y)%R) /\
  exists v n, fl_var_n (fun x => x) (fun _ => false) 1 [Some 1%R; Some 3%R] (fun _ => true) = Ok (v, n) /\ v <> None.
Proof.
  split; [auto|]. unfold fl_var_n, var_filter, covariance_filter, require. cbn. unfold fl_div, fl_ofn, fl_ofz, fl_val. cbn.
  repeat (destruct (Req_EM_T _ _); cbn; try lra). eexists; eexists; split; [reflexivity|discriminate].
Qed.
