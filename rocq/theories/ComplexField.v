(** The field of complex rationals, and complex covariance. *)
From Coq Require Import ZArith Field.
From Verif Require Import Base Functional FunctionalProofs Spec Numeric NumericProofs NumericFacts BaseFl FlFacts Stats StatsMoments StatsVar StatsVarFacts.
From Coq Require Import Lqa.
Open Scope nat_scope.

Notation C := (Qc * Qc)%type.
Definition c0 : C := (0%Qc, 0%Qc).
Definition c1 : C := (1%Qc, 0%Qc).
Definition cnorm2 (z : C) : Qc := (fst z * fst z + snd z * snd z)%Qc.
Definition cinv (z : C) : C := (fst z / cnorm2 z, - snd z / cnorm2 z)%Qc.
Definition cdiv (a b : C) : C := cmul a (cinv b).
Definition cofn (n : nat) : C := (qn n, 0%Qc).
Definition cofz (z : Z) : C := (qz z, 0%Qc).

Lemma cnorm2_nonneg z : (0 <= cnorm2 z)%Qc.
Proof. unfold cnorm2. assert (A := qsquare_nonneg (fst z)). assert (B := qsquare_nonneg (snd z)). qc_lra. Qed.
Lemma cnorm2_zero z : cnorm2 z = 0%Qc -> z = c0.
Proof.
  destruct z as [a b]. unfold cnorm2. simpl. intros H. assert (A := qsquare_nonneg a). assert (B := qsquare_nonneg b).
  assert (A0 : (a * a = 0)%Qc) by (apply Qcle_antisym; qc_lra). assert (B0 : (b * b = 0)%Qc) by (apply Qcle_antisym; qc_lra).
  apply Qcmult_integral in A0, B0. assert (a = 0%Qc) by tauto. assert (b = 0%Qc) by tauto. now subst.
Qed.
Lemma cfield : field_theory c0 c1 cadd cmul csub copp cdiv cinv eq.
Proof.
  constructor.
  - exact complex_ring.
  - discriminate.
  - reflexivity.
  - intros [a b] H. assert (N : cnorm2 (a, b) <> 0%Qc) by (intros E; apply H; now apply cnorm2_zero).
    unfold cmul, cinv, c1. cbn [fst snd]. unfold cnorm2 in *. cbn [fst snd] in *. f_equal; field; exact N.
Qed.
Lemma cofn_add m n : cofn (m + n) = cadd (cofn m) (cofn n).
Proof. unfold cofn, cadd. simpl. rewrite qn_add. f_equal. Qed.
Lemma cofn_nz n : n <> 0 -> cofn n <> c0.
Proof. intros H E. apply (f_equal fst) in E. simpl in E. now apply (qn_neq0 n). Qed.
Lemma cconj_add x y : cconj (cadd x y) = cadd (cconj x) (cconj y).
Proof. destruct x, y; unfold cconj, cadd; simpl; f_equal; ring. Qed.
Lemma cconj_mul x y : cconj (cmul x y) = cmul (cconj x) (cconj y).
Proof. destruct x, y; unfold cconj, cmul; simpl; f_equal; ring. Qed.
Lemma cconj_nat n : cconj (cofn n) = cofn n.
Proof. unfold cconj, cofn. simpl. f_equal. Qed.

Lemma Ok_inj {A} (a b : A) : Ok a = Ok b -> a = b.
Proof. now intros [= ->]. Qed.
Definition csum (l : list C) : C := bigop cadd c0 l.
Definition cmean (x : list C) : C := cdiv (csum x) (cofn (length x)).
Definition cdev_sum (x y : list C) : C :=
  csum (map (fun p => cmul (csub (fst p) (cmean x)) (cconj (csub (snd p) (cmean y)))) (combine x y)).
Definition ccovariance (nan inf : C) := covariance c0 c1 nan inf cadd csub cmul cdiv cconj cofn cofz false.

Lemma ccovariance_spec : forall nan inf ddof x y, length x = length y -> x <> [] ->
  ccovariance nan inf ddof x y =
  Ok (if (Z.of_nat (length x) - ddof <=? 0)%Z then inf else cdiv (cdev_sum x y) (cofz (Z.of_nat (length x) - ddof))).
Proof.
  intros nan inf ddof x y Hl Hx. unfold ccovariance.
  rewrite (covariance_spec C c0 c1 cadd cmul csub copp cdiv cinv cconj cofn cfield cconj_add cconj_mul cconj_nat eq_refl eq_refl
    cofn_add cofn_nz nan inf cofz ddof x y Hl Hx).
  do 3 f_equal. unfold kcodev, cdev_sum, csum. rewrite combine_fst, combine_snd by exact Hl. reflexivity.
Qed.
(** complex variance: real part of the covariance of the data with itself; the imaginary part vanishes *)
Lemma cdev_sum_self x : cdev_sum x x = (qsum (map (fun u => cnorm2 (csub u (cmean x))) x), 0%Qc).
Proof.
  unfold cdev_sum. rewrite combine_same, map_map. cbn [fst snd]. generalize (cmean x) as m. intros m.
  induction x as [|u x IH]; [reflexivity|]. cbn [map csum bigop qsum]. unfold csum in IH. rewrite IH.
  destruct u as [a b], m as [c d]. unfold cadd, cmul, cconj, csub, cnorm2. cbn [fst snd]. f_equal; ring.
Qed.
Lemma cvar_spec : forall nan inf ddof x, x <> [] -> (ddof < Z.of_nat (length x))%Z ->
  var c0 c1 nan inf cadd csub cmul cdiv cconj cofn cofz false (fun z => (fst z, 0%Qc)) ddof x =
  Ok (qsum (map (fun u => cnorm2 (csub u (cmean x))) x) / qz (Z.of_nat (length x) - ddof), 0)%Qc /\
  (0 <= qsum (map (fun u => cnorm2 (csub u (cmean x))) x) / qz (Z.of_nat (length x) - ddof))%Qc.
Proof.
  intros nan inf ddof x Hx Hd. split.
  - pose proof (ccovariance_spec nan inf ddof x x eq_refl Hx) as E. unfold ccovariance, covariance in E.
    unfold var, var_filter. destruct (covariance_filter _ _ _ _ _ _ _ _ _ _ _ _ _ _ _ _) as [[v n]| | |]; try discriminate.
    unfold omap in *. cbn [bind fst] in *.
    assert (Ev : v = if (Z.of_nat (length x) - ddof <=? 0)%Z then inf else cdiv (cdev_sum x x) (cofz (Z.of_nat (length x) - ddof)))
      by (now inversion E).
    destruct (Z.leb_spec (Z.of_nat (length x) - ddof) 0); [lia|]. rewrite Ev. rewrite cdev_sum_self.
    unfold cdiv, cmul, cinv, cofz, cnorm2. cbn [fst snd]. apply f_equal. apply f_equal2; [|reflexivity].
    assert (N : qz (Z.of_nat (length x) - ddof) <> 0%Qc) by (change 0%Qc with (qz 0); rewrite qz_inj; lia).
    field. first [exact N | split; exact N].
  - apply qdiv_nonneg; [|apply qz_pos; lia]. apply qsum_nonneg. intros v Hv. apply in_map_iff in Hv. destruct Hv as (u & <- & _).
    apply cnorm2_nonneg.
Qed.

(** *** complex covariance matrix *)
Definition cvar (nan inf : C) := var c0 c1 nan inf cadd csub cmul cdiv cconj cofn cofz false (fun z => (fst z, 0%Qc)).
Definition ccovmat (nan inf : C) (ddof : Z) (x y : list C) :=
  cov c0 c1 nan inf cadd csub cmul cdiv cconj cofn cofz false (fun z => (fst z, 0%Qc)) ddof x y (fun _ => true).
Lemma cdev_sum_conj x y : length x = length y -> cdev_sum y x = cconj (cdev_sum x y).
Proof.
  unfold cdev_sum. generalize (cmean x) as mx. generalize (cmean y) as my. intros my mx. revert y.
  induction x as [|u x IH]; intros [|v y] H; simpl in H; try lia; [reflexivity|]. cbn [combine map csum bigop].
  unfold csum in IH. rewrite IH by lia. rewrite cconj_add. f_equal.
  destruct u as [a b], v as [c d], mx as [e f], my as [g h]. unfold cmul, cconj, csub. cbn [fst snd]. f_equal; ring.
Qed.
Lemma cconj_div a b : cconj (cdiv a (cofz b)) = cdiv (cconj a) (cofz b).
Proof.
  destruct a as [u v]. unfold cdiv, cofz, cinv, cmul, cconj, cnorm2, Qcdiv. cbn [fst snd].
  generalize (/ (qz b * qz b + 0 * 0))%Qc as q. intros q. f_equal; ring.
Qed.
Lemma ccov_matrix : forall nan inf ddof x y, length x = length y -> x <> [] -> (ddof < Z.of_nat (length x))%Z ->
  exists vx c vy, ccovmat nan inf ddof x y = Ok (vx, c, cconj c, vy) /\
    cvar nan inf ddof x = Ok vx /\ cvar nan inf ddof y = Ok vy /\
    ccovariance nan inf ddof x y = Ok c /\ ccovariance nan inf ddof y x = Ok (cconj c).
Proof.
  intros nan inf ddof x y Hl Hx Hd.
  assert (Hy : y <> []) by (destruct x, y; simpl in *; congruence).
  assert (Hd2 : (ddof < Z.of_nat (length y))%Z) by lia.
  destruct (cvar_spec nan inf ddof x Hx Hd) as [V1 _]. destruct (cvar_spec nan inf ddof y Hy Hd2) as [V2 _].
  pose proof (ccovariance_spec nan inf ddof x y Hl Hx) as E. pose proof (ccovariance_spec nan inf ddof y x (eq_sym Hl) Hy) as E'.
  rewrite (cdev_sum_conj x y Hl), <- Hl in E'.
  destruct (Z.leb_spec (Z.of_nat (length x) - ddof) 0); [lia|]. rewrite <- cconj_div in E'.
  fold (cvar nan inf) in V1, V2. do 3 eexists. split; [|split; [exact V1|split; [exact V2|split; [exact E|exact E']]]].
  unfold ccovmat, cov. unfold cvar, var, omap in V1, V2. unfold ccovariance, covariance, omap in E.
  destruct (covariance_filter _ _ _ _ _ _ _ _ _ _ _ _ _ x y _) as [[c n]| | |]; try discriminate. cbn [bind fst] in *.
  destruct (var_filter _ _ _ _ _ _ _ _ _ _ _ _ _ _ x _) as [[v1 n1]| | |]; try discriminate. cbn [bind fst] in *.
  destruct (var_filter _ _ _ _ _ _ _ _ _ _ _ _ _ _ y _) as [[v2 n2]| | |]; try discriminate. cbn [bind fst] in *.
  apply Ok_inj in V1, V2, E. now rewrite V1, V2, E.
Qed.
