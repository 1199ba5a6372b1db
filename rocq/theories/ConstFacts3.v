(** Accuracy of the physical constants. *)
From Coq Require Import ZArith QArith Qreals Reals List.
From Flocq Require Import Core.
From Verif Require Import Base Arith Quantity UnitsTable Constants ConstFacts ConstFacts2.
From Coq Require Import Lra Psatz Lia.
Open Scope nat_scope.
Set Implicit Arguments.

Lemma dec_Z n k : dec n k = (IZR n / IZR (10 ^ Z.of_nat k))%R.
Proof. unfold dec. f_equal. now rewrite pow_IZR. Qed.
Ltac decz := rewrite ?dec_Z in *; repeat match goal with |- context [(10 ^ Z.of_nat ?k)%Z] => let v := eval vm_compute in (10 ^ Z.of_nat k)%Z in change (10 ^ Z.of_nat k)%Z with v end.

Definition C_h : R := dec 662607015 42.
Definition C_e : R := dec 1602176634 28.
Definition C_me : R := dec 91093837015 41.
Definition C_mp : R := dec 167262192369 38.
Definition C_alpha : R := dec 72973525693 13.
Definition C_c : R := 299792458%R.

Lemma tiny32 t : (t <= / 2 ^ 126)%R -> (t <= 1176 / 10 ^ 41)%R.
Proof.
  intros H. eapply Rle_trans; [exact H|]. rewrite !pow_IZR. set (a := IZR (2 ^ Z.of_nat 126)). change (10 ^ Z.of_nat 41)%Z with 100000000000000000000000000000000000000000%Z.
  unfold a. change (2 ^ Z.of_nat 126)%Z with 85070591730234615865843651857942052864%Z. lra.
Qed.
Section Acc.
Variables (rnd : R -> R) (u tiny : R).
Hypothesis (Hu : (/ 2 ^ 53 <= u <= / 2 ^ 24)%R) (Ht : (0 < tiny <= / 2 ^ 126)%R) (A : accurate rnd u tiny).
Local Notation cl := (close u).
Lemma tb : (tiny <= 1176 / 100000000000000000000000000000000000000000)%R.
Proof. destruct Ht as [_ H]. apply tiny32 in H. rewrite pow_IZR in H. exact H. Qed.
Lemma lit1000 X : (1 / 100000000000000000000000000000000000000 <= X)%R -> (/ 2 ^ 1000 <= X)%R.
Proof.
  intros H. eapply Rle_trans; [|exact H]. unfold Rdiv. rewrite Rmult_1_l. apply Rinv_le_contravar; [lra|]. apply Rle_trans with (2 ^ 127)%R.
  - rewrite pow_IZR. apply IZR_le. vm_compute. discriminate.
  - apply Rle_pow; [lra|lia].
Qed.
Lemma cl_lit X : (1 / 10000000000000000000000000000000000000 <= X)%R -> cl 2 (lit rnd X) X.
Proof. pose proof tb. destruct Ht. intros H'. apply (@close_lit rnd u tiny Hu); [assumption|assumption|apply lit1000; lra|lra]. Qed.
Lemma cl_mul n m x y X Y : n + m <= 60 -> (3 / 125000000000000000000000000000000000000 <= X * Y)%R -> cl n x X -> cl m y Y -> cl (S (n + m)) (rmul rnd x y) (X * Y).
Proof. pose proof tb. destruct Ht. intros. apply (@close_rmul rnd u tiny Hu); try assumption. lra. Qed.
Lemma cl_div n m x y X Y : n + m <= 60 -> (3 / 125000000000000000000000000000000000000 <= X / Y)%R -> cl n x X -> cl m y Y -> cl (S (n + m)) (rdiv rnd x y) (X / Y).
Proof. pose proof tb. destruct Ht. intros. apply (@close_rdiv rnd u tiny Hu); try assumption. lra. Qed.
Lemma cl_ex X : (0 < X)%R -> cl 0 X X.
Proof. apply close_exact. Qed.

Lemma b_c : cl 1 (rnd 299792458) C_c.
Proof. pose proof tb. destruct Ht. apply (@close_rnd rnd u tiny Hu); try assumption; [lia|apply cl_ex; unfold C_c; lra|unfold C_c; lra]. Qed.
Lemma r_h : (6626 / 10000000000000000000000000000000000000 <= C_h <= 6627 / 10000000000000000000000000000000000000)%R.
Proof. unfold C_h. decz. lra. Qed.
Lemma r_e : (16021 / 100000000000000000000000 <= C_e <= 16022 / 100000000000000000000000)%R.
Proof. unfold C_e. decz. lra. Qed.
Lemma r_me : (9109 / 10000000000000000000000000000000000 <= C_me <= 9110 / 10000000000000000000000000000000000)%R.
Proof. unfold C_me. decz. lra. Qed.
Lemma r_mp : (1672 / 1000000000000000000000000000000 <= C_mp <= 1673 / 1000000000000000000000000000000)%R.
Proof. unfold C_mp. decz. lra. Qed.
Lemma r_alpha : (7297 / 1000000 <= C_alpha <= 7298 / 1000000)%R.
Proof. unfold C_alpha. decz. lra. Qed.
Lemma b_h : cl 2 (lit rnd (dec 662607015 42)) C_h.
Proof. pose proof r_h. apply cl_lit. unfold C_h in *. lra. Qed.
Lemma b_e : cl 2 (lit rnd (dec 1602176634 28)) C_e.
Proof. pose proof r_e. apply cl_lit. unfold C_e in *. lra. Qed.
Lemma b_me : cl 2 (lit rnd (dec 91093837015 41)) C_me.
Proof. pose proof r_me. apply cl_lit. unfold C_me in *. lra. Qed.
Lemma b_mp : cl 2 (lit rnd (dec 167262192369 38)) C_mp.
Proof. pose proof r_mp. apply cl_lit. unfold C_mp in *. lra. Qed.
Lemma b_alpha : cl 2 (alpha rnd) C_alpha.
Proof. pose proof r_alpha. apply cl_lit. unfold C_alpha in *. lra. Qed.
Lemma b_pi : cl 3 (cst_pi rnd) PI.
Proof.
  assert (L : cl 2 (cst_pi rnd) (dec 31415926535897932384626433832795029 34)) by (apply cl_lit; decz; lra).
  assert (E : (Rabs (dec 31415926535897932384626433832795029 34 - PI) <= 1 / 1000000000000000000000)%R) by (pose proof pi_range; decz; apply Rabs_le; lra).
  apply Rabs_le_inv in E. pose proof pi_range as P. pose proof (u_small Hu) as U. assert (UV : (1 / 10000000000000000 <= u)%R).
  { destruct Hu as [H _]. eapply Rle_trans; [|exact H]. rewrite pow_IZR. change (2 ^ Z.of_nat 53)%Z with 9007199254740992%Z. lra. }
  set (X := dec 31415926535897932384626433832795029 34) in *. destruct L as (P0 & L1 & L2). split; [lra|]. pose proof (pw Hu 2) as Q. change ((1 - u) ^ 3)%R with ((1 - u) * (1 - u) ^ 2)%R.
  assert ((1 - u) * PI <= X)%R by nra. assert ((1 - u) * X <= PI)%R by nra. split.
  - apply Rle_trans with ((1 - u) ^ 2 * X)%R; [|exact L1]. replace ((1 - u) * (1 - u) ^ 2 * PI)%R with ((1 - u) ^ 2 * ((1 - u) * PI))%R by ring. apply Rmult_le_compat_l; lra.
  - replace (cst_pi rnd * ((1 - u) * (1 - u) ^ 2))%R with ((1 - u) * (cst_pi rnd * (1 - u) ^ 2))%R by ring. apply Rle_trans with ((1 - u) * X)%R; [|lra]. apply Rmult_le_compat_l; lra.
Qed.

(** bounds on the exact values *)
Definition small (X : R) : Prop := (3 / 125000000000000000000000000000000000000 <= X)%R.
Lemma mul_lo a b X Y : (0 <= a)%R -> (0 <= b)%R -> (a <= X)%R -> (b <= Y)%R -> (a * b <= X * Y)%R.
Proof. intros. apply Rmult_le_compat; assumption. Qed.
Lemma div_lo a b X Y : (0 <= a)%R -> (0 < Y)%R -> (a <= X)%R -> (Y <= b)%R -> (a / b <= X / Y)%R.
Proof. intros. unfold Rdiv. apply Rmult_le_compat; try assumption; [left; apply Rinv_0_lt_compat; lra|apply Rinv_le_contravar; assumption]. Qed.
Lemma div_hi b X Y a : (0 <= X)%R -> (0 < b)%R -> (X <= a)%R -> (b <= Y)%R -> (X / Y <= a / b)%R.
Proof. intros. unfold Rdiv. apply Rmult_le_compat; try assumption; [left; apply Rinv_0_lt_compat; lra|apply Rinv_le_contravar; assumption]. Qed.
Definition X_hbar : R := (1 / (2 * PI) * C_h)%R.
Lemma r_i2pi : (159 / 1000 <= 1 / (2 * PI) <= 160 / 1000)%R.
Proof.
  pose proof pi_range. split.
  - replace (159 / 1000)%R with (1 / (1000 / 159))%R by lra. apply div_lo; lra.
  - replace (160 / 1000)%R with (1 / (1000 / 160))%R by lra. apply div_hi; lra.
Qed.
Lemma r_hbar : (1053 / 10000000000000000000000000000000000000 <= X_hbar <= 1061 / 10000000000000000000000000000000000000)%R.
Proof. pose proof r_i2pi. pose proof r_h. unfold X_hbar. split; [eapply Rle_trans; [|eapply (@mul_lo (159/1000) (6626 / 10000000000000000000000000000000000000))]; lra|]. 
  eapply Rle_trans; [eapply (@mul_lo (1 / (2 * PI)) C_h (160/1000) (6627 / 10000000000000000000000000000000000000)); lra|lra]. Qed.
Lemma b_hbar : cl 8 (v_hbar rnd) X_hbar.
Proof.
  pose proof r_i2pi. pose proof r_hbar. pose proof r_h. pose proof pi_range. apply (@cl_mul 5 2); [lia|fold X_hbar; lra| |exact b_h].
  apply (@cl_div 0 4); [lia|lra|apply cl_ex; lra|]. apply (@cl_mul 0 3); [lia|lra|apply cl_ex; lra|exact b_pi].
Qed.
Lemma r_ee : (2566 / 100000000000000000000000000000000000000000 <= C_e * C_e <= 2568 / 100000000000000000000000000000000000000000)%R.
Proof. pose proof r_e. split; [eapply Rle_trans; [|eapply (@mul_lo (16021 / 100000000000000000000000) (16021 / 100000000000000000000000))]; lra|].
  eapply Rle_trans; [eapply (@mul_lo C_e C_e (16022 / 100000000000000000000000) (16022 / 100000000000000000000000)); lra|lra]. Qed.
Lemma b_ee : cl 5 (rmul rnd (v_e rnd) (v_e rnd)) (C_e * C_e).
Proof. pose proof r_ee. apply (@cl_mul 2 2); [lia|lra|exact b_e|exact b_e]. Qed.
Definition X_mu0 : R := (2 * C_alpha * C_h / (C_e * C_e * C_c))%R.
Lemma r_eec : (769 / 100000000000000000000000000000000 <= C_e * C_e * C_c <= 770 / 100000000000000000000000000000000)%R.
Proof. pose proof r_ee. unfold C_c. split; lra. Qed.
Lemma r_2ah : (966 / 100000000000000000000000000000000000000 <= 2 * C_alpha * C_h <= 968 / 100000000000000000000000000000000000000)%R.
Proof. pose proof r_alpha. pose proof r_h. split; [eapply Rle_trans; [|eapply (@mul_lo (2*7297/1000000) (6626 / 10000000000000000000000000000000000000))]; lra|].
  eapply Rle_trans; [eapply (@mul_lo (2 * C_alpha) C_h (2 * 7298/1000000) (6627 / 10000000000000000000000000000000000000)); lra|lra]. Qed.
Lemma r_mu0 : (125 / 100000000 <= X_mu0 <= 126 / 100000000)%R.
Proof. pose proof r_eec. pose proof r_2ah. unfold X_mu0. split.
  - eapply Rle_trans; [|apply (@div_lo (966 / 100000000000000000000000000000000000000) (770 / 100000000000000000000000000000000))]; lra.
  - eapply Rle_trans; [apply (@div_hi (769 / 100000000000000000000000000000000) _ _ (968 / 100000000000000000000000000000000000000)); lra|lra]. Qed.
Lemma b_mu0 : cl 14 (v_mu0 rnd) X_mu0.
Proof.
  pose proof r_eec. pose proof r_2ah. pose proof r_mu0. pose proof r_alpha. pose proof r_ee. apply (@cl_div 6 7); [lia|fold X_mu0; lra| |].
  - apply (@cl_mul 3 2); [lia|lra| |exact b_h]. apply (@cl_mul 0 2); [lia|lra|apply cl_ex; lra|exact b_alpha].
  - apply (@cl_mul 5 1); [lia|lra|exact b_ee|exact b_c].
Qed.
Definition X_eps0 : R := (1 / (X_mu0 * C_c * C_c))%R.
Lemma r_eps0 : (8 / 1000000000000 <= X_eps0)%R.
Proof. pose proof r_mu0. unfold X_eps0, C_c. eapply Rle_trans; [|apply (@div_lo 1 (126 / 100000000 * 299792458 * 299792458))]; lra. Qed.
Lemma b_eps0 : cl 20 (v_eps0 rnd) X_eps0.
Proof.
  pose proof r_mu0. pose proof r_eps0. assert (E : X_eps0 = (1 * X_eps0)%R) by ring. rewrite E. apply (@cl_mul 0 19); [lia|lra|apply cl_ex; lra|].
  apply (@cl_div 0 18); [lia|fold X_eps0; lra|apply cl_ex; lra|]. apply (@cl_mul 16 1); [lia|unfold C_c; lra| |exact b_c].
  apply (@cl_mul 14 1); [lia|unfold C_c; lra|exact b_mu0|exact b_c].
Qed.
Definition X_KJ : R := (2 * C_e / C_h)%R.
Lemma r_KJ : (1 <= X_KJ <= 1000000000000000)%R.
Proof. pose proof r_e. pose proof r_h. unfold X_KJ. split.
  - eapply Rle_trans; [|apply (@div_lo (2 * 16021 / 100000000000000000000000) (6627 / 10000000000000000000000000000000000000))]; lra.
  - eapply Rle_trans; [apply (@div_hi (6626 / 10000000000000000000000000000000000000) _ _ (2 * 16022 / 100000000000000000000000)); lra|lra]. Qed.
Lemma b_KJ : cl 6 (v_KJ rnd) X_KJ.
Proof. pose proof r_KJ. pose proof r_e. apply (@cl_div 3 2); [lia|fold X_KJ; lra| |exact b_h]. apply (@cl_mul 0 2); [lia|lra|apply cl_ex; lra|exact b_e]. Qed.
Definition X_Phi0 : R := (1 / X_KJ)%R.
Lemma r_Phi0 : (1 / 1000000000000000 <= X_Phi0)%R.
Proof. pose proof r_KJ. unfold X_Phi0. apply div_lo; lra. Qed.
Lemma b_Phi0 : cl 8 (v_Phi0 rnd) X_Phi0.
Proof.
  pose proof r_Phi0. pose proof r_KJ. assert (E : X_Phi0 = (1 * X_Phi0)%R) by ring. rewrite E. apply (@cl_mul 0 7); [lia|lra|apply cl_ex; lra|].
  apply (@cl_div 0 6); [lia|fold X_Phi0; lra|apply cl_ex; lra|exact b_KJ].
Qed.
Definition X_RK : R := (C_h / (C_e * C_e))%R.
Lemma b_RK : cl 8 (v_RK rnd) X_RK.
Proof.
  pose proof r_ee. pose proof r_h. apply (@cl_div 2 5); [lia| |exact b_h|exact b_ee].
  eapply Rle_trans; [|apply (@div_lo (6626 / 10000000000000000000000000000000000000) (2568 / 100000000000000000000000000000000000000000))]; lra.
Qed.
Definition X_Rinf : R := (1 / 2 * C_alpha * C_alpha * C_me * C_c / C_h)%R.
Lemma r_aa : (26 / 1000000 <= 1 / 2 * C_alpha * C_alpha <= 27 / 1000000)%R.
Proof. pose proof r_alpha. split; [eapply Rle_trans; [|eapply (@mul_lo (1/2*7297/1000000) (7297/1000000))]; lra|].
  eapply Rle_trans; [eapply (@mul_lo (1 / 2 * C_alpha) C_alpha (1/2*7298/1000000) (7298/1000000)); lra|lra]. Qed.
Lemma r_aam : (236 / 10000000000000000000000000000000000000 <= 1 / 2 * C_alpha * C_alpha * C_me)%R.
Proof. pose proof r_aa. pose proof r_me. eapply Rle_trans; [|eapply (@mul_lo (26 / 1000000) (9109 / 10000000000000000000000000000000000))]; lra. Qed.
Lemma b_Rinf : cl 14 (v_Rinf rnd) X_Rinf.
Proof.
  pose proof r_aa. pose proof r_aam. pose proof r_alpha. pose proof r_h.
  assert (G : (7 / 1000000000000000000000000000 <= 1 / 2 * C_alpha * C_alpha * C_me * C_c)%R) by (unfold C_c; lra).
  apply (@cl_div 11 2); [lia| | |exact b_h].
  - eapply Rle_trans; [|apply (@div_lo (7 / 1000000000000000000000000000) (6627 / 10000000000000000000000000000000000000))]; lra.
  - apply (@cl_mul 9 1); [lia|lra| |exact b_c]. apply (@cl_mul 6 2); [lia|lra| |exact b_me]. apply (@cl_mul 3 2); [lia|lra| |exact b_alpha].
    apply (@cl_mul 0 2); [lia|lra|apply cl_ex; lra|exact b_alpha].
Qed.
Definition X_a0 : R := (X_hbar / (C_alpha * C_me * C_c))%R.
Lemma r_am : (66 / 10000000000000000000000000000000000 <= C_alpha * C_me <= 67 / 10000000000000000000000000000000000)%R.
Proof. pose proof r_alpha. pose proof r_me. split; [eapply Rle_trans; [|eapply (@mul_lo (7297/1000000) (9109 / 10000000000000000000000000000000000))]; lra|].
  eapply Rle_trans; [eapply (@mul_lo C_alpha C_me (7298/1000000) (9110 / 10000000000000000000000000000000000)); lra|lra]. Qed.
Lemma b_a0 : cl 16 (v_a0 rnd) X_a0.
Proof.
  pose proof r_am. pose proof r_hbar.
  assert (G : (1 / 10000000000000000000000000 <= C_alpha * C_me * C_c <= 3 / 1000000000000000000000000)%R) by (unfold C_c; lra).
  apply (@cl_div 8 7); [lia| |exact b_hbar|].
  - eapply Rle_trans; [|apply (@div_lo (1053 / 10000000000000000000000000000000000000) (3 / 1000000000000000000000000))]; lra.
  - apply (@cl_mul 5 1); [lia|lra| |exact b_c]. apply (@cl_mul 2 2); [lia|lra|exact b_alpha|exact b_me].
Qed.
Definition X_mu (m : R) : R := (1 / 2 * C_e * X_hbar / m)%R.
Lemma r_eh : (843 / 100000000000000000000000000000000000000000000000000000000 <= 1 / 2 * C_e * X_hbar)%R.
Proof. pose proof r_e. pose proof r_hbar. eapply Rle_trans; [|eapply (@mul_lo (1/2*16021 / 100000000000000000000000) (1053 / 10000000000000000000000000000000000000))]; lra. Qed.
Lemma b_muX m M : (tiny <= 1 / 1000000000000000000000000000000000000000000000000000000000000000)%R -> cl 2 m M -> (M <= 1 / 100)%R -> cl 15 (v_muX rnd m) (X_mu M).
Proof.
  intros T C B. pose proof r_eh. pose proof r_e. pose proof r_hbar. destruct Ht as [T0 _]. apply (@close_rdiv rnd u tiny Hu T0 A 12 2); [lia| | |exact C].
  - assert (P : (0 < M)%R) by apply C. eapply Rle_trans; [|apply (@div_lo (843 / 100000000000000000000000000000000000000000000000000000000) (1 / 100))]; lra.
  - apply (@close_rmul rnd u tiny Hu T0 A 3 8); [lia|lra| |exact b_hbar]. apply (@cl_mul 0 2); [lia|lra|apply cl_ex; lra|exact b_e].
Qed.
End Acc.

(** ** The published values *)
Lemma div_near X Y v d : (0 < Y)%R -> ((v - d) * Y <= X <= (v + d) * Y)%R -> (Rabs (X / Y - v) <= d)%R.
Proof.
  intros P [L U]. apply Rabs_le. split.
  - apply Rmult_le_reg_r with Y; [exact P|]. replace ((X / Y - v) * Y)%R with (X - v * Y)%R by (field; lra). nra.
  - apply Rmult_le_reg_r with Y; [exact P|]. replace ((X / Y - v) * Y)%R with (X - v * Y)%R by (field; lra). nra.
Qed.
Ltac cz := unfold C_h, C_e, C_me, C_mp, C_alpha, C_c; decz.
Lemma cd_mu0 : (Rabs (X_mu0 - dec 125663706212 17) <= dec 18 17)%R.
Proof. apply div_near; [pose proof r_eec; lra|]. cz. lra. Qed.
Lemma X_eps0_eq : X_eps0 = (C_e * C_e / (2 * C_alpha * C_h * C_c))%R.
Proof. pose proof r_2ah. pose proof r_ee. pose proof r_alpha. pose proof r_h. pose proof r_e. unfold X_eps0, X_mu0, C_c in *. field. repeat split; lra. Qed.
Lemma cd_eps0 : (Rabs (X_eps0 - dec 88541878128 22) <= dec 12 22)%R.
Proof. rewrite X_eps0_eq. apply div_near; [pose proof r_2ah; unfold C_c; lra|]. cz. lra. Qed.
Lemma cd_KJ : (Rabs (X_KJ - 483597848416984) <= 1)%R.
Proof. apply div_near; [pose proof r_h; lra|]. cz. lra. Qed.
Lemma cd_RK : (Rabs (X_RK - dec 2581280745930 8) <= dec 1 8)%R.
Proof. apply div_near; [pose proof r_ee; lra|]. cz. lra. Qed.
Lemma cd_Phi0 : (Rabs (X_Phi0 - dec 2067833848461 27) <= dec 1 27)%R.
Proof.
  assert (E : X_Phi0 = (C_h / (2 * C_e))%R) by (pose proof r_e; pose proof r_h; unfold X_Phi0, X_KJ; field; lra). rewrite E. apply div_near; [pose proof r_e; lra|]. cz. lra.
Qed.
Lemma cd_Rinf : (Rabs (X_Rinf - dec 10973731568160 6) <= dec 2140 8)%R.
Proof. apply div_near; [pose proof r_h; lra|]. cz. lra. Qed.
Lemma pi_lo_hi : (31415926535897932384 / 10000000000000000000 <= PI <= 31415926535897932388 / 10000000000000000000)%R.
Proof. pose proof pi_range. lra. Qed.
Lemma cd_hbar : (Rabs (X_hbar - dec 10545718176 44) <= dec 1 44)%R.
Proof.
  pose proof pi_lo_hi as P. assert (E : X_hbar = (C_h / (2 * PI))%R) by (unfold X_hbar; field; lra). rewrite E. apply div_near; [lra|]. cz. lra.
Qed.
Lemma cd_a0 : (Rabs (X_a0 - dec 529177210903 22) <= dec 79 22)%R.
Proof.
  pose proof pi_lo_hi as P. pose proof r_am as Q. assert (E : X_a0 = (C_h / (2 * PI * (C_alpha * C_me * C_c)))%R).
  { pose proof r_alpha. pose proof r_me. unfold X_a0, X_hbar, C_c. field. repeat split; lra. }
  rewrite E. apply div_near; [pose proof r_alpha; pose proof r_me; unfold C_c; repeat (first [lra|apply Rmult_lt_0_compat])|]. cz. lra.
Qed.
Lemma cd_mu m v d : (0 < m)%R -> (forall p, (31415926535897932384 / 10000000000000000000 <= p <= 31415926535897932388 / 10000000000000000000)%R ->
   ((v - d) * (4 * p * m) <= C_e * C_h <= (v + d) * (4 * p * m))%R) -> (Rabs (X_mu m - v) <= d)%R.
Proof.
  intros M H. pose proof pi_lo_hi as P. assert (E : X_mu m = (C_e * C_h / (4 * PI * m))%R) by (unfold X_mu, X_hbar; field; lra).
  rewrite E. apply div_near; [repeat (first [lra|apply Rmult_lt_0_compat])|]. now apply H.
Qed.
Lemma cd_muB : (Rabs (X_mu C_me - dec 92740100783 34) <= dec 27 34)%R.
Proof. apply cd_mu; [pose proof r_me; lra|]. intros p P. cz. lra. Qed.
Lemma cd_muN : (Rabs (X_mu C_mp - dec 50507837461 37) <= dec 14 37)%R.
Proof. apply cd_mu; [pose proof r_mp; lra|]. intros p P. cz. lra. Qed.
Lemma near_total u x X v d d' : (Rabs (x - X) <= 40 * u * X)%R -> (Rabs (X - v) <= d)%R -> (40 * u * X <= d' - d)%R -> (Rabs (x - v) <= d')%R.
Proof. intros. replace (x - v)%R with ((x - X) + (X - v))%R by ring. eapply Rle_trans; [apply Rabs_triang|]. lra. Qed.

(** ** float *)
Lemma acc32 : accurate rnd32 (/ 2 ^ 24) (/ 2 ^ 126).
Proof. pose proof (@rnd_accurate (-149) 24 ltac:(lia)) as H. replace (/ 2 ^ 24)%R with (bpow radix2 (- (24))) by (rewrite pow_IZR; reflexivity). replace (/ 2 ^ 126)%R with (bpow radix2 (-149 + 24 - 1)) by (rewrite pow_IZR; reflexivity). exact H. Qed.
Lemma acc64 : accurate rnd64 (/ 2 ^ 53) (/ 2 ^ 1022).
Proof. pose proof (@rnd_accurate (-1074) 53 ltac:(lia)) as H. replace (/ 2 ^ 53)%R with (bpow radix2 (- (53))) by (rewrite pow_IZR; reflexivity). replace (/ 2 ^ 1022)%R with (bpow radix2 (-1074 + 53 - 1)) by (rewrite pow_IZR; reflexivity). exact H. Qed.
Lemma acc80 : accurate rnd80 (/ 2 ^ 53) (/ 2 ^ 1022).
Proof.
  pose proof (@rnd_accurate (-16445) 64 ltac:(lia)) as H. intros x Hx. destruct (H x) as [L U].
  - eapply Rle_trans; [|exact Hx]. replace (/ 2 ^ 1022)%R with (bpow radix2 (-1022)) by (rewrite pow_IZR; reflexivity). apply bpow_le. lia.
  - assert (P : (0 < / 2 ^ 1022)%R) by (apply Rinv_0_lt_compat, pow_lt; lra). assert (Q : (bpow radix2 (- (64)) <= / 2 ^ 53)%R).
    { replace (/ 2 ^ 53)%R with (bpow radix2 (-53)) by (rewrite pow_IZR; reflexivity). apply bpow_le. lia. }
    fold rnd80 in L, U. nra.
Qed.
Lemma muX32_zero m M : close (/ 2 ^ 24) 2 m M -> v_muX rnd32 m = 0%R.
Proof.
  intros C. assert (Hu : (/ 2 ^ 53 <= / 2 ^ 24 <= / 2 ^ 24)%R) by (split; [apply Rinv_le_contravar; [apply pow_lt; lra|apply Rle_pow; [lra|lia]]|lra]).
  assert (Ht : (0 < / 2 ^ 126 <= / 2 ^ 126)%R) by (split; [apply Rinv_0_lt_compat, pow_lt; lra|lra]).
  pose proof (b_hbar Hu Ht acc32) as H. pose proof (b_e Hu Ht acc32) as E. pose proof r_e. pose proof (r_hbar Ht).
  assert (E2 : close (/ 2 ^ 24) 3 (rmul rnd32 (1 / 2) (v_e rnd32)) (1 / 2 * C_e)) by (apply (@cl_mul rnd32 _ _ Hu Ht acc32 0 2); [lia|lra|apply cl_ex; lra|exact E]).
  pose proof (close_mul Hu E2 H) as P. pose proof (close_pos Hu P) as P0. destruct P as (_ & _ & P2).
  assert (HF : (/ 2 <= (1 - / 2 ^ 24) ^ (3 + 8))%R).
  { eapply Rle_trans; [|apply (pw_lo Hu)]. rewrite pow_IZR. change (2 ^ Z.of_nat 24)%Z with 16777216%Z. simpl INR. lra. }
  assert (Z : rmul rnd32 (rmul rnd32 (1 / 2) (v_e rnd32)) (v_hbar rnd32) = 0%R).
  { unfold rmul at 1. unfold rnd32 at 1. apply rnd_small; [lia|]. split; [exact P0|]. set (x := (rmul rnd32 (1 / 2) (v_e rnd32) * v_hbar rnd32)%R) in *.
    assert (B : (1 / 2 * C_e * X_hbar <= 1 / 1000000000000000000000000000000000000000000000000000)%R).
    { eapply Rle_trans; [eapply (@mul_lo (1 / 2 * C_e) X_hbar (1/2*16022 / 100000000000000000000000) (1061 / 10000000000000000000000000000000000000)); lra|lra]. }
    replace (bpow radix2 (-149 - 1)) with (/ IZR (2 ^ 150))%R by reflexivity. change (2 ^ 150)%Z with 1427247692705959881058285969449495136382746624%Z.
    pose proof (Rmult_le_compat_l x _ _ (Rlt_le _ _ P0) HF). lra. }
  unfold v_muX. rewrite Z. unfold rdiv, Rdiv. rewrite Rmult_0_l. apply round_0. typeclasses eauto.
Qed.
