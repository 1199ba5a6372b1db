(** The types and the value expressions of the physical constants. *)
From Coq Require Import ZArith QArith Qreals Reals List.
From Verif Require Import Base Arith Quantity QuantityFacts UnitsSpec UnitsRef UnitsTable UnitsFacts Constants ConstFacts.
From Coq Require Import Lra Lia.
Open Scope nat_scope.
Set Implicit Arguments.

Section Types.
Variable rnd : R -> R.
Definition isq (c : cst) (D : rr) (l : list Q) (x : R) : Prop :=
  c = Some (uz D one_rr, x) /\ exists e, dim_of ufuel true (uz D one_rr) e /\ same_expo e (listed l).
Lemma isq_lit t D l x : const_is t D l -> isq (of_type t x) D l x.
Proof. intros [E H]. rewrite E. split; [reflexivity|exact H]. Qed.
Lemma isq_mul a b D D' D'' l l' l'' x y : isq a D l x -> isq b D' l' y -> rr_multiply ufuel D D' = Some D'' -> expo_check Qplus l'' l l' = true ->
  isq (q_times rnd a b) D'' l'' (rmul rnd x y).
Proof.
  intros [Ea [e [De Se]]] [Eb [f [Df Sf]]] M C. rewrite Ea, Eb.
  assert (E : ty_mul ufuel (uz D one_rr) (uz D' one_rr) = Some (uz D'' one_rr)).
  { unfold ty_mul, uz. cbn [u_off u_dim u_scale]. change (ratio_eqb zero_ratio zero_ratio) with true. cbv iota. rewrite M. reflexivity. }
  split; [unfold q_times, q_mul; now rewrite E|]. exists (fun i => e i + f i)%Q. split; [eapply do_mul; eauto|].
  intros i Hi. rewrite (Se i Hi), (Sf i Hi). symmetry. apply (@expo_check_ok _ _ _ _ C i Hi).
Qed.
Lemma isq_div a b D D' D'' l l' l'' x y : isq a D l x -> isq b D' l' y -> rr_divide ufuel D D' = Some D'' -> expo_check Qminus l'' l l' = true ->
  isq (q_over rnd a b) D'' l'' (rdiv rnd x y).
Proof.
  intros [Ea [e [De Se]]] [Eb [f [Df Sf]]] M C. rewrite Ea, Eb.
  assert (E : ty_div ufuel (uz D one_rr) (uz D' one_rr) = Some (uz D'' one_rr)).
  { unfold ty_div, uz. cbn [u_off u_dim u_scale]. change (ratio_eqb zero_ratio zero_ratio) with true. cbv iota. rewrite M. reflexivity. }
  split; [unfold q_over, q_div; now rewrite E|]. exists (fun i => e i - f i)%Q. split; [eapply do_div; eauto|].
  intros i Hi. rewrite (Se i Hi), (Sf i Hi). symmetry. apply (@expo_check_ok _ _ _ _ C i Hi).
Qed.
Lemma isq_n_over k b D D' l l' y : isq b D l y -> rr_divide ufuel one_rr D = Some D' -> expo_check (fun a _ => - a)%Q l' l l = true ->
  isq (n_over rnd k b) D' l' (rmul rnd k (rdiv rnd 1 y)).
Proof.
  intros [Eb [f [Df Sf]]] M C. rewrite Eb.
  assert (E : ty_inv ufuel (uz D one_rr) = Some (uz D' one_rr)).
  { unfold ty_inv, uz. cbn [u_dim u_scale]. rewrite M. reflexivity. }
  split; [unfold n_over, q_sdiv; now rewrite E|]. exists (fun i => - f i)%Q. split; [eapply do_inv; eauto|].
  intros i Hi. rewrite (Sf i Hi). symmetry. apply (@expo_check_ok _ _ _ _ C i Hi).
Qed.
Lemma isq_n_times k b D l y : isq b D l y -> isq (n_times rnd k b) D l (rmul rnd k y).
Proof. intros [Eb H]. rewrite Eb. split; [reflexivity|exact H]. Qed.
Lemma isq_over_n a k D l x : isq a D l x -> isq (q_over_n rnd a k) D l (rmul rnd (rdiv rnd 1 k) x).
Proof. intros [Eb H]. rewrite Eb. split; [reflexivity|exact H]. Qed.

Definition d_c : rr := Eval vm_compute in fdim (speed one_rr).
Definition d_G : rr := Eval vm_compute in fdim (qdiv (volume one_rr) (qmul (mass one_rr) (qmul (time one_rr) (time one_rr)))).
Definition d_h : rr := Eval vm_compute in fdim (qmul (energy one_rr) (time one_rr)).
Definition d_e : rr := Eval vm_compute in fdim (electric_charge one_rr).
Definition d_m : rr := Eval vm_compute in fdim (mass one_rr).
Definition d_k : rr := Eval vm_compute in fdim (qdiv (energy one_rr) (temperature one_rr zero_ratio)).
Definition dmul (a b : rr) : rr := match rr_multiply ufuel a b with Some d => d | None => one_rr end.
Definition ddiv (a b : rr) : rr := match rr_divide ufuel a b with Some d => d | None => one_rr end.

Definition l_h : list Q := [2; -(1); 1]%Q.
Definition l_tt : list Q := [0; 2]%Q.
Definition l_mtt : list Q := [0; 2; 1]%Q.
Definition l_G : list Q := [3; -(2); -(1)]%Q.
Lemma q_c : isq (pc_c rnd) d_c [1; -(1)]%Q (rnd 299792458).
Proof. apply isq_lit. assert (E : fdim (speed one_rr) = d_c) by vmr. rewrite <- E. exact (fam_const F_speed). Qed.
Lemma q_e : isq (pc_e rnd) d_e [0; 1; 0; 1]%Q (lit rnd (dec 1602176634 28)).
Proof. apply isq_lit. assert (E : fdim (electric_charge one_rr) = d_e) by vmr. rewrite <- E. exact (fam_const F_electric_charge). Qed.
Lemma q_me : isq (pc_m_e rnd) d_m [0; 0; 1]%Q (lit rnd (dec 91093837015 41)).
Proof. apply isq_lit. assert (E : fdim (mass one_rr) = d_m) by vmr. rewrite <- E. exact (fam_const F_mass). Qed.
Lemma q_mp : isq (pc_m_p rnd) d_m [0; 0; 1]%Q (lit rnd (dec 167262192369 38)).
Proof. apply isq_lit. assert (E : fdim (mass one_rr) = d_m) by vmr. rewrite <- E. exact (fam_const F_mass). Qed.
Lemma F_planck : fam_is (fun s => qmul (energy s) (time one_rr)) (fdim (qmul (energy one_rr) (time one_rr))) l_h.
Proof. refine (@fam_mul _ _ _ _ _ _ _ _ F_energy (fam_const F_time) _ _); [vmr|vmr]. Qed.
Lemma F_tt : fam_is (fun s => qmul (time s) (time one_rr)) (fdim (qmul (time one_rr) (time one_rr))) l_tt.
Proof. refine (@fam_mul _ _ _ _ _ _ _ _ F_time (fam_const F_time) _ _); [vmr|vmr]. Qed.
Lemma F_mtt : fam_is (fun s => qmul (mass s) (qmul (time one_rr) (time one_rr))) (fdim (qmul (mass one_rr) (qmul (time one_rr) (time one_rr)))) l_mtt.
Proof. refine (@fam_mul _ _ _ _ _ _ _ _ F_mass (fam_const F_tt) _ _); [vmr|vmr]. Qed.
Lemma F_newton : fam_is (fun s => qdiv (volume s) (qmul (mass one_rr) (qmul (time one_rr) (time one_rr))))
  (fdim (qdiv (volume one_rr) (qmul (mass one_rr) (qmul (time one_rr) (time one_rr))))) l_G.
Proof. refine (@fam_div _ _ _ _ _ _ _ _ F_volume (fam_const F_mtt) _ _); [vmr|vmr]. Qed.
Lemma q_h : isq (pc_h rnd) d_h l_h (lit rnd (dec 662607015 42)).
Proof. apply isq_lit. assert (E : fdim (qmul (energy one_rr) (time one_rr)) = d_h) by vmr. rewrite <- E. exact (fam_const F_planck). Qed.
Lemma q_k : isq (pc_k rnd) d_k [2; -(2); 1; 0; -(1)]%Q (lit rnd (dec 1380649 29)).
Proof. apply isq_lit. assert (E : fdim (heat_capacity one_rr) = d_k) by vmr. rewrite <- E. exact (fam_const F_heat_capacity). Qed.
Lemma q_G : isq (pc_G rnd) d_G l_G (lit rnd (dec 667430 16)).
Proof.
  apply isq_lit. assert (E : fdim (qdiv (volume one_rr) (qmul (mass one_rr) (qmul (time one_rr) (time one_rr)))) = d_G) by vmr. rewrite <- E. exact (fam_const F_newton).
Qed.
Definition v_hbar : R := rmul rnd (rdiv rnd 1 (rmul rnd 2 (cst_pi rnd))) (lit rnd (dec 662607015 42)).
Lemma q_hbar : isq (pc_hbar rnd) d_h l_h v_hbar.
Proof. apply isq_over_n, q_h. Qed.
Definition v_e : R := lit rnd (dec 1602176634 28).
Definition v_mu0 : R := rdiv rnd (rmul rnd (rmul rnd 2 (alpha rnd)) (lit rnd (dec 662607015 42))) (rmul rnd (rmul rnd v_e v_e) (rnd 299792458)).
Definition d_ee : rr := Eval vm_compute in dmul d_e d_e.
Definition d_mu0 : rr := Eval vm_compute in ddiv d_h (dmul d_ee d_c).
Lemma q_ee : isq (q_times rnd (pc_e rnd) (pc_e rnd)) d_ee [0; 2; 0; 2]%Q (rmul rnd v_e v_e).
Proof. eapply isq_mul; [exact q_e|exact q_e|vmr|vmr]. Qed.
Lemma q_mu0 : isq (pc_mu0 rnd) d_mu0 [1; -(2); 1; -(2)]%Q v_mu0.
Proof.
  eapply isq_div; [apply isq_n_times, q_h|eapply (@isq_mul _ _ _ _ _ _ _ [1; 1; 0; 2]%Q); [exact q_ee|exact q_c|vmr|vmr]|vmr|vmr].
Qed.
Definition v_eps0 : R := rmul rnd 1 (rdiv rnd 1 (rmul rnd (rmul rnd v_mu0 (rnd 299792458)) (rnd 299792458))).
Definition d_mcc : rr := Eval vm_compute in dmul (dmul d_mu0 d_c) d_c.
Definition d_eps0 : rr := Eval vm_compute in ddiv one_rr d_mcc.
Lemma q_eps0 : isq (pc_epsilon0 rnd) d_eps0 [-(3); 4; -(1); 2]%Q v_eps0.
Proof.
  eapply (@isq_n_over _ _ d_mcc _ [3; -(4); 1; -(2)]%Q); [|vmr|vmr].
  eapply isq_mul; [eapply (@isq_mul _ _ _ _ _ _ _ [2; -(3); 1; -(2)]%Q); [exact q_mu0|exact q_c|vmr|vmr]|exact q_c|vmr|vmr].
Qed.
Definition v_KJ : R := rdiv rnd (rmul rnd 2 v_e) (lit rnd (dec 662607015 42)).
Definition d_KJ : rr := Eval vm_compute in ddiv d_e d_h.
Lemma q_KJ : isq (pc_K_J rnd) d_KJ [-(2); 2; -(1); 1]%Q v_KJ.
Proof. eapply isq_div; [apply isq_n_times, q_e|exact q_h|vmr|vmr]. Qed.
Definition v_RK : R := rdiv rnd (lit rnd (dec 662607015 42)) (rmul rnd v_e v_e).
Definition d_RK : rr := Eval vm_compute in ddiv d_h d_ee.
Lemma q_RK : isq (pc_R_K rnd) d_RK [2; -(3); 1; -(2)]%Q v_RK.
Proof. eapply isq_div; [exact q_h|exact q_ee|vmr|vmr]. Qed.
Definition v_Phi0 : R := rmul rnd 1 (rdiv rnd 1 v_KJ).
Definition d_Phi0 : rr := Eval vm_compute in ddiv one_rr d_KJ.
Lemma q_Phi0 : isq (pc_Phi0 rnd) d_Phi0 [2; -(2); 1; -(1)]%Q v_Phi0.
Proof. eapply isq_n_over; [exact q_KJ|vmr|vmr]. Qed.
Definition v_muX (m : R) : R := rdiv rnd (rmul rnd (rmul rnd (1 / 2) v_e) v_hbar) m.
Definition d_mu : rr := Eval vm_compute in ddiv (dmul d_e d_h) d_m.
Lemma q_muB : isq (pc_muB rnd) d_mu [2; 0; 0; 1]%Q (v_muX (lit rnd (dec 91093837015 41))).
Proof. eapply isq_div; [eapply (@isq_mul _ _ _ _ _ _ _ [2; 0; 1; 1]%Q); [apply isq_n_times, q_e|exact q_hbar|vmr|vmr]|exact q_me|vmr|vmr]. Qed.
Lemma q_muN : isq (pc_muN rnd) d_mu [2; 0; 0; 1]%Q (v_muX (lit rnd (dec 167262192369 38))).
Proof. eapply isq_div; [eapply (@isq_mul _ _ _ _ _ _ _ [2; 0; 1; 1]%Q); [apply isq_n_times, q_e|exact q_hbar|vmr|vmr]|exact q_mp|vmr|vmr]. Qed.
Definition v_Rinf : R := rdiv rnd (rmul rnd (rmul rnd (rmul rnd (rmul rnd (1 / 2) (alpha rnd)) (alpha rnd)) (lit rnd (dec 91093837015 41))) (rnd 299792458)) (lit rnd (dec 662607015 42)).
Definition d_Rinf : rr := Eval vm_compute in ddiv (dmul d_m d_c) d_h.
Lemma q_Rinf : isq (pc_Rinf rnd) d_Rinf [-(1)]%Q v_Rinf.
Proof. eapply isq_div; [eapply (@isq_mul _ _ _ _ _ _ _ [1; -(1); 1]%Q); [apply isq_n_times, q_me|exact q_c|vmr|vmr]|exact q_h|vmr|vmr]. Qed.
Definition v_a0 : R := rdiv rnd v_hbar (rmul rnd (rmul rnd (alpha rnd) (lit rnd (dec 91093837015 41))) (rnd 299792458)).
Definition d_a0 : rr := Eval vm_compute in ddiv d_h (dmul d_m d_c).
Lemma q_a0 : isq (pc_a0 rnd) d_a0 [1]%Q v_a0.
Proof. eapply isq_div; [exact q_hbar|eapply (@isq_mul _ _ _ _ _ _ _ [1; -(1); 1]%Q); [apply isq_n_times, q_me|exact q_c|vmr|vmr]|vmr|vmr]. Qed.
Lemma isq_dim c D l x : isq c D l x -> exists u, c = Some (u, x) /\ has_dimension u l /\ forall v, physical u v = v.
Proof.
  intros [E [e [De Se]]]. exists (uz D one_rr). split; [exact E|]. split; [exists ufuel, e; auto|]. intros v.
  change physical with phys. unfold phys. cbn [uz u_scale u_off]. rewrite one_rr_val, ratio_val_zero. ring.
Qed.
End Types.
