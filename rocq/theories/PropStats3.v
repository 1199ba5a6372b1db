(** C86-C88: standard deviation and error, skewness and kurtosis, geometric mean.
    [total], [average], [central_moment n] (mean of (u - mean)^n) and [product] are the textbook quantities on lists of reals. *)
From Coq Require Import ZArith Reals Permutation.
From Verif Require Import Base Functional Spec Numeric BaseFl FlFacts Stats StatsMoments StatsVar StatsVarFacts StatsReal StatsRealFacts StatsRealFacts2.
From Coq Require Import Lra Psatz.
Open Scope nat_scope.

(** C86 *)
Theorem C86_std_sem : forall (nan inf : R) (ddof : Z) (x : list R), x <> [] -> (ddof < Z.of_nat (length x))%Z ->
  exists s : R, std nan inf ddof x = Ok s /\ (0 <= s)%R /\
    (s * s = total (map (fun u => (u - average x) ^ 2) x) / IZR (Z.of_nat (length x) - ddof))%R /\
    sem nan inf ddof x = Ok (s / sqrt (INR (length x)))%R /\
    (s = 0%R <-> forall u v, In u x -> In v x -> u = v) /\
    (forall a b, std nan inf ddof (map (fun u => a * u + b)%R x) = Ok (Rabs a * s)%R).
Proof. exact std_facts. Qed.
Print Assumptions C86_std_sem.
Example C86_nonvacuous : exists s, std 0 0 0 [1; 5]%R = Ok s /\ s = 2%R.
Proof.
  destruct (C86_std_sem 0 0 0 [1; 5]%R) as (s & E & P & Q & _); [discriminate|reflexivity|].
  exists s. split; [exact E|]. unfold total, average, total in Q. simpl in Q.
  assert (H : (s * s = 2 * 2)%R) by (rewrite Q; field).
  assert (F : ((s - 2) * (s + 2) = 0)%R) by (ring_simplify; ring_simplify in H; lra). apply Rmult_integral in F. lra.
Qed.

(** C87 *)
Theorem C87_kurtosis : forall (nan inf : R) (x : list R), x <> [] -> central_moment 2 x <> 0%R ->
  rkurtosis nan inf false x f_all = Ok (central_moment 4 x / central_moment 2 x ^ 2)%R /\
  rkurtosis nan inf true x f_all = Ok (central_moment 4 x / central_moment 2 x ^ 2 - 3)%R /\
  (1 <= central_moment 4 x / central_moment 2 x ^ 2)%R /\
  (forall fisher a b, a <> 0%R -> rkurtosis nan inf fisher (map (fun u => a * u + b)%R x) f_all = rkurtosis nan inf fisher x f_all).
Proof.
  intros nan inf x H N. split; [|split; [|split]].
  - rewrite kurt_eq by exact H. f_equal. lra.
  - now rewrite kurt_eq.
  - pose proof (kurt_skew_ineq H N). pose proof (pow2_ge_0 (central_moment 3 x / sqrt (central_moment 2 x ^ 3))). lra.
  - intros. now apply kurt_affine.
Qed.
Print Assumptions C87_kurtosis.
Theorem C87_skew : forall (nan inf : R) (x : list R), x <> [] -> central_moment 2 x <> 0%R ->
  exists s, skew nan inf x f_all = Ok s /\ s = (central_moment 3 x / sqrt (central_moment 2 x ^ 3))%R /\
    (s ^ 2 + 1 <= central_moment 4 x / central_moment 2 x ^ 2)%R /\
    (forall a b, (0 < a)%R -> skew nan inf (map (fun u => a * u + b)%R x) f_all = Ok s) /\
    (forall a b, (a < 0)%R -> skew nan inf (map (fun u => a * u + b)%R x) f_all = Ok (- s)%R) /\
    (forall c, Permutation x (map (fun u => 2 * c - u)%R x) -> s = 0%R) /\
    (forall y, Permutation x y -> skew nan inf y f_all = Ok s).
Proof.
  intros nan inf x H N. eexists. split; [now apply skew_eq|]. split; [reflexivity|]. split; [now apply kurt_skew_ineq|].
  split; [|split; [|split]].
  - intros a b A. rewrite skew_affine by (try assumption; lra). destruct (Rlt_dec 0 a); [|lra]. f_equal. lra.
  - intros a b A. rewrite skew_affine by (try assumption; lra). destruct (Rlt_dec 0 a); [lra|]. f_equal. lra.
  - intros c P. pose proof (skew_symmetric nan inf c H N P) as S. rewrite skew_eq in S by exact H. congruence.
  - intros y P. rewrite skew_eq; [|intros ->; apply Permutation_sym, Permutation_nil in P; contradiction].
    now rewrite <- !(perm_cm _ P).
Qed.
Print Assumptions C87_skew.
(** constant data: 0/0, NaN in the code *)
Theorem C87_constant_is_nan : forall (c : Qc) (n : nat) (fisher : bool),
  kurtosis f0 f1 NaN PInf fadd fsub fmul fdiv (fun x => x) ffn ffz false (Fin (qz 3)) fisher (map Fin (repeat c (S n))) f_all = Ok NaN.
Proof.
  intros c n fisher. set (x := repeat c (S n)).
  assert (Hx : x <> []) by discriminate.
  assert (M : qmean x = c).
  { unfold qmean, x. rewrite repeat_length. assert (S : forall k, qsum (repeat c k) = (qn k * c)%Qc).
    { intros k. pose proof (@qsum_le (repeat c k) c) as A. pose proof (@qsum_ge (repeat c k) c) as B. rewrite repeat_length in A, B.
      apply Qcle_antisym; [apply A|apply B]; intros v Hv; apply repeat_spec in Hv; subst; apply Qcle_refl. }
    rewrite S. field. intros E. pose proof (@qn_pos (Datatypes.S n)). rewrite E in H. specialize (H ltac:(lia)). discriminate H. }
  assert (Z : forall k, 2 <= k -> qmean (map (fun v => rpow (Q2Qc 1) Qcmult (v - qmean x)%Qc k) x) = 0%Qc).
  { intros k Hk. rewrite (map_ext_in _ (fun _ => 0%Qc)).
    - assert (S : qsum (map (fun _ : Qc => 0%Qc) x) = 0%Qc) by (induction x; [reflexivity|]; simpl; clear -x; induction x; simpl; [ring|rewrite IHx; ring]).
      unfold qmean. rewrite S. unfold Qcdiv. ring.
    - intros v Hv. apply repeat_spec in Hv. subst v. rewrite M. destruct k as [|k]; [lia|]. simpl. ring. }
  unfold kurtosis. change (moment f0 f1 NaN PInf fadd fsub fmul fdiv (fun x => x) ffn ffz false (fun x => x)) with fmoment.
  rewrite (moment_2 x Hx), (moment_all 4 x ltac:(lia) Hx). cbn [bind].
  rewrite !Z by lia. destruct fisher; reflexivity.
Qed.
Print Assumptions C87_constant_is_nan.
Example C87_nonvacuous : central_moment 2 [0; 0; 3]%R = 2%R /\ central_moment 3 [0; 0; 3]%R = 2%R.
Proof. split; unfold central_moment, average, total; simpl; field. Qed.

(** C88 *)
Theorem C88_gmean : forall (nan : R) (c : container) (vc : valcat) (x : list R), x <> [] -> Forall (fun u => (0 < u)%R) x ->
  let g := fst (gmean nan c vc x) in
  (0 < g)%R /\ (g ^ length x = product x)%R /\ (g <= average x)%R /\
  (forall lo hi, (0 < lo)%R -> (forall u, In u x -> lo <= u <= hi)%R -> (lo <= g <= hi)%R) /\
  (forall k, (0 < k)%R -> fst (gmean nan c vc (map (fun u => k * u)%R x)) = (k * g)%R).
Proof. exact gmean_facts. Qed.
Print Assumptions C88_gmean.
Theorem C88_gmean_filtered : forall (nan : R) (x : list R) (p : R -> bool),
  gmean_filter nan x p = fst (gmean nan Vector Rvalue (filter p x)) /\
  fst (gmean nan Vector Rvalue []) = nan.
Proof. intros. split; [|reflexivity]. unfold gmean_filter. now rewrite FunctionalProofs.filter_scicpp_filter. Qed.
Print Assumptions C88_gmean_filtered.
(** the argument survives only when it is const *)
Theorem C88_gmean_argument_refuted :
  (forall nan c (x : list R), snd (gmean nan c ConstLvalue x) = x) /\
  (forall nan (x : list R), snd (gmean nan Vector Lvalue x) = []) /\
  (forall nan (x : list R), snd (gmean nan Array Lvalue x) = map ln x).
Proof.
  split; [|split].
  - intros nan c [|u x]; reflexivity.
  - intros nan [|u x]; reflexivity.
  - intros nan [|u x]; [reflexivity|]. unfold gmean, map1_same, moved_from. cbn [snd]. apply FunctionalProofs.transform1_map.
Qed.
Print Assumptions C88_gmean_argument_refuted.
Example C88_nonvacuous : (let g := fst (gmean 0 Vector Rvalue [2; 8]) in g ^ 2 = 16)%R.
Proof.
  destruct (C88_gmean 0 Vector Rvalue [2; 8]%R) as (_ & E & _); [discriminate|repeat constructor; lra|].
  cbv zeta in *. simpl length in E. rewrite E. unfold product. simpl. lra.
Qed.
