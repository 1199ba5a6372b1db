(** C119: accuracy of the variance and standard deviation in floating point. *)
From Coq Require Import List Arith ZArith Reals Bool.
From Flocq Require Import Core.
From Verif Require Import Base Functional Stats PairwiseError FloatArith FloatArithFacts PropFloatArith FloatVar FloatVarFacts.
From Coq Require Import Lra Psatz Lia.
Import ListNotations.
Open Scope R_scope.

(** Precision [prec], unlimited exponents (no underflow or overflow); rounding to nearest, ties as [ties] says. *)
Definition in_flx (prec : Z) (x : R) : Prop := generic_format radix2 (FLX_exp prec) x.
Definition nearest_flx (prec : Z) (ties : Z -> bool) (x : R) : R := round radix2 (FLX_exp prec) (Znearest ties) x.
(** the exact standard deviation of the data, with [ddof] degrees of freedom removed *)
Definition exact_mean (l : list R) : R := total l / INR (length l).
Definition exact_std (ddof : Z) (l : list R) : R := sqrt (total (map (fun x => (x - exact_mean l) ^ 2) l) / IZR (Z.of_nat (length l) - ddof)).
Lemma exact_std_eq ddof l : exact_std ddof l = sqrt (sdev2 l / IZR (Z.of_nat (length l) - ddof)).
Proof.
  unfold exact_std, sdev2, dev2. replace (map (fun x => (x - exact_mean l) ^ 2) l) with (map (fun x => (x - avg l) * (x - avg l)) l); [reflexivity|].
  apply map_ext_in. intros x _. unfold exact_mean, avg, total, Rsum. ring.
Qed.
Lemma flx_integer prec z : (0 < prec)%Z -> (Z.abs z <= 2 ^ prec)%Z -> in_flx prec (IZR z).
Proof. intros Hp Hz. apply (generic_format_FLX_FLT radix2 0 prec). apply flt_integer; lia. Qed.

(** For at most 64 * 2^L data of magnitude at most M: the square root of the computed variance is within a relative gamma(68 + 2 L) of the exact standard
    deviation plus (L + 1) gamma(65 + 4 L) (1 + u)^(68 + 2 L) times M (times sqrt (n / (n - ddof))): rounding errors grow with the logarithm of the number
    of data, and cancellation costs M once, not M^2 / sigma as in a one-pass formula. *)
Theorem C119_variance : forall (prec : Z) (ties : Z -> bool) (nan inf : R) (ddof : Z) (l : list R) (L : nat) (M : R),
  (0 < prec)%Z -> l <> [] -> (length l <= 64 * 2 ^ L)%nat -> (Z.of_nat (length l) <= 2 ^ prec)%Z -> (0 < Z.of_nat (length l) - ddof <= 2 ^ prec)%Z ->
  Forall (in_flx prec) l -> Forall (fun x => Rabs x <= M) l ->
  let sigma := exact_std ddof l in let spread := sqrt (INR (length l) / IZR (Z.of_nat (length l) - ddof)) * M in
  exists v, r_var (nearest_flx prec ties) nan inf ddof l = Ok v /\ 0 <= v /\
    Rabs (sqrt v - sigma) <= gamma prec (68 + 2 * L) * sigma + INR (L + 1) * (1 + uro prec) ^ (68 + 2 * L) * gamma prec (65 + 4 * L) * spread.
Proof.
  intros prec ties nan inf ddof l L M Hp Hl HL Hn Hnu HF HM sigma spread.
  pose proof (flx_rounding prec ties Hp) as RD.
  assert (HN : forall k, (k <= length l)%nat -> in_flx prec (INR k)) by (intros k Hk; rewrite INR_IZR_INZ; apply flx_integer; lia).
  destruct (var_err _ _ _ RD nan inf M L ddof l ltac:(lia) HL Hl HF HN (flx_integer prec (Z.of_nat (length l) - ddof) Hp ltac:(lia)) HM) as (v & E & P & B). exists v. split; [exact E|split; [exact P|]].
  unfold sigma, spread. rewrite exact_std_eq. eapply Rle_trans; [exact B|]. apply Req_le. unfold gamma, K, mu, g, uro. replace (L + 1)%nat with (S L) by lia.
  replace (68 + 2 * L)%nat with (S (67 + 2 * L)) by lia. cbn [pow]. rewrite ?Rmult_1_r. ring.
Qed.
Print Assumptions C119_variance.

Theorem C119_std : forall (prec : Z) (ties : Z -> bool) (nan inf : R) (ddof : Z) (l : list R) (L : nat) (M : R),
  (0 < prec)%Z -> l <> [] -> (length l <= 64 * 2 ^ L)%nat -> (Z.of_nat (length l) <= 2 ^ prec)%Z -> (0 < Z.of_nat (length l) - ddof <= 2 ^ prec)%Z ->
  Forall (in_flx prec) l -> Forall (fun x => Rabs x <= M) l ->
  let sigma := exact_std ddof l in let spread := sqrt (INR (length l) / IZR (Z.of_nat (length l) - ddof)) * M in
  exists s, r_std (nearest_flx prec ties) nan inf ddof l = Ok s /\ 0 <= s /\
    Rabs (s - sigma) <= gamma prec (69 + 2 * L) * sigma + INR (L + 1) * (1 + uro prec) ^ (69 + 2 * L) * gamma prec (65 + 4 * L) * spread.
Proof.
  intros prec ties nan inf ddof l L M Hp Hl HL Hn Hnu HF HM sigma spread.
  destruct (C119_variance prec ties nan inf ddof l L M Hp Hl HL Hn Hnu HF HM) as (v & E & P & B). fold sigma in B. fold spread in B.
  unfold r_std. rewrite E. cbn [omap bind]. eexists. split; [reflexivity|]. pose proof (flx_rounding prec ties Hp) as RD.
  assert (M0 : 0 <= M) by (destruct l as [|x l']; [contradiction|]; inversion HM; subst; pose proof (Rabs_pos x); lra).
  assert (G : forall k, 1 <= (1 + uro prec) ^ k) by (intros k; exact (g_ge _ _ _ _ RD k)). pose proof (G (65 + 4 * L)%nat) as G1. pose proof (G (68 + 2 * L)%nat) as G2.
  set (W := INR (L + 1) * (1 + uro prec) ^ (68 + 2 * L) * gamma prec (65 + 4 * L) * spread) in *.
  assert (W0 : 0 <= W). { unfold W, gamma, spread. pose proof (pos_INR (L + 1)). pose proof (sqrt_pos (INR (length l) / IZR (Z.of_nat (length l) - ddof))). apply Rmult_le_pos; [apply Rmult_le_pos; [apply Rmult_le_pos; lra|lra]|now apply Rmult_le_pos]. }
  destruct (std_err _ _ _ RD _ v sigma (68 + 2 * L) W P (sqrt_pos _) W0 B eq_refl) as [S0 S1]. split; [exact S0|].
  eapply Rle_trans; [exact S1|]. apply Req_le. unfold W, gamma, g, uro. replace (69 + 2 * L)%nat with (S (68 + 2 * L)) by lia. cbn [pow]. ring.
Qed.
Print Assumptions C119_std.

Example C119_nonvacuous : exists v, r_var (nearest_flx 53 (fun _ => true)) 0 0 1 [1; 2; 4] = Ok v /\ 0 <= v /\ Forall (in_flx 53) [1; 2; 4].
Proof.
  assert (F : Forall (in_flx 53) [1; 2; 4]) by (repeat (apply Forall_cons; [apply flx_integer; lia|]); apply Forall_nil).
  destruct (C119_variance 53 (fun _ => true) 0 0 1 [1; 2; 4] 0 4) as (v & E & P & _); try (cbn; lia); try discriminate; [exact F| |exists v; auto].
  repeat (apply Forall_cons; [rewrite Rabs_pos_eq; lra|]). apply Forall_nil.
Qed.
