(** Properties C43, C45 (scicpp/signal/convolve.hpp, direct method). *)
From Coq Require Import ZArith Ring.
From Verif Require Import Base Functional FunctionalProofs Spec SumLib Convolve ConvolveFacts.
Open Scope nat_scope.

(** C43 *)
Theorem C43_convolve : forall (T : Type) (rO rI : T) radd rmul rsub ropp, ring_theory rO rI radd rmul rsub ropp eq ->
  forall a v : list T, a <> [] -> v <> [] -> exists c, convolve rO radd rmul a v = Ok c /\ length c = length a + length v - 1 /\
  forall k, nth k c rO = nsum rO radd (fun i => rmul (nth i a rO) (nth (k - i) v rO)) (S k).
Proof.
  intros T rO rI radd rmul rsub ropp Rth a v Ha Hv. eexists. split; [apply (convolve_spec Rth); now left|].
  split; [apply cprod_length|]. exact (cprod_coef Rth a v).
Qed.
Print Assumptions C43_convolve.
Theorem C43_commutative : forall (T : Type) (rO rI : T) radd rmul rsub ropp, ring_theory rO rI radd rmul rsub ropp eq ->
  forall a v : list T, convolve rO radd rmul a v = convolve rO radd rmul v a.
Proof.
  intros T rO rI radd rmul rsub ropp Rth a v.
  destruct a as [|x a]; [destruct v as [|y v]; [reflexivity|]|].
  - rewrite !(convolve_spec Rth); try (left; discriminate); try (right; discriminate). now rewrite (cprod_comm Rth).
  - rewrite !(convolve_spec Rth); try (left; discriminate); try (right; discriminate). now rewrite (cprod_comm Rth).
Qed.
Print Assumptions C43_commutative.
Theorem C43_associative : forall (T : Type) (rO rI : T) radd rmul rsub ropp, ring_theory rO rI radd rmul rsub ropp eq ->
  forall a b c : list T, a <> [] -> b <> [] -> c <> [] ->
  exists ab bc r, convolve rO radd rmul a b = Ok ab /\ convolve rO radd rmul b c = Ok bc /\
    convolve rO radd rmul ab c = Ok r /\ convolve rO radd rmul a bc = Ok r.
Proof.
  intros T rO rI radd rmul rsub ropp Rth a b c Ha Hb Hc. do 3 eexists.
  split; [apply (convolve_spec Rth); now left|]. split; [apply (convolve_spec Rth); now left|].
  split; [apply (convolve_spec Rth); now right|]. rewrite (convolve_spec Rth) by now left. now rewrite (cprod_assoc Rth).
Qed.
Print Assumptions C43_associative.
Theorem C43_bilinear : forall (T : Type) (rO rI : T) radd rmul rsub ropp, ring_theory rO rI radd rmul rsub ropp eq ->
  forall (a b v : list T) (s : T), a <> [] -> length a = length b ->
  exists ca cb cs cm, convolve rO radd rmul a v = Ok ca /\ convolve rO radd rmul b v = Ok cb /\
    convolve rO radd rmul (map (fun p => radd (fst p) (snd p)) (combine a b)) v = Ok cs /\
    cs = map (fun p => radd (fst p) (snd p)) (combine ca cb) /\
    convolve rO radd rmul (map (rmul s) a) v = Ok cm /\ cm = map (rmul s) ca.
Proof.
  intros T rO rI radd rmul rsub ropp Rth a b v s Ha Hl.
  assert (Hb : b <> []) by (destruct a, b; simpl in *; congruence).
  assert (Z : forall x y : list T, length x = length y -> zadd (rO := rO) (radd := radd) x y = map (fun p => radd (fst p) (snd p)) (combine x y)).
  { intros x y Hxy. apply (list_ext (rO := rO)).
    - unfold zadd. rewrite !map_length, seq_length, combine_length. lia.
    - intros k Hk. unfold zadd in Hk. rewrite map_length, seq_length in Hk. rewrite (zadd_coef Rth). unfold coef.
      rewrite (nth_indep (map _ (combine x y)) rO (radd (fst (rO, rO)) (snd (rO, rO)))) by (rewrite map_length, combine_length; lia).
      rewrite (map_nth (fun p => radd (fst p) (snd p))). rewrite combine_nth by exact Hxy. reflexivity. }
  do 4 eexists. split; [apply (convolve_spec Rth); now left|]. split; [apply (convolve_spec Rth); now left|].
  split; [apply (convolve_spec Rth); left; intros C; apply (f_equal (@length T)) in C; rewrite map_length, combine_length in C; destruct a, b; simpl in *; congruence|].
  split; [rewrite <- (Z a b Hl), (cprod_add_l Rth) by exact Hl; apply Z; rewrite !cprod_length; lia|].
  split; [apply (convolve_spec Rth); left; destruct a; simpl; congruence|]. apply (cprod_scale_l Rth).
Qed.
Print Assumptions C43_bilinear.
Theorem C43_impulse : forall (T : Type) (rO rI : T) radd rmul rsub ropp, ring_theory rO rI radd rmul rsub ropp eq ->
  forall (a : list T) d, a <> [] -> convolve rO radd rmul (repeat rO d ++ [rI]) a = Ok (repeat rO d ++ a).
Proof.
  intros T rO rI radd rmul rsub ropp Rth a d Ha. rewrite (convolve_spec Rth) by now right. now rewrite (cprod_impulse Rth).
Qed.
Print Assumptions C43_impulse.
(** two empty operands: the result size wraps to SIZE_MAX, std::length_error *)
Theorem C43_both_empty : forall (T : Type) (rO : T) radd rmul, convolve rO radd rmul [] [] = Throw.
Proof. reflexivity. Qed.
Print Assumptions C43_both_empty.
Example C43_nonvacuous : convolve 0%Z Z.add Z.mul [1; 2; 3]%Z [4; 5]%Z = Ok [4; 13; 22; 15]%Z.
Proof. reflexivity. Qed.

(** C45: element k is sum_n a[n + k - (len v - 1)] conj(v[n]), out-of-range a being 0 *)
Theorem C45_correlate : forall (T : Type) (rO rI : T) radd rmul rsub ropp, ring_theory rO rI radd rmul rsub ropp eq ->
  forall (conj : T -> T) (a v : list T), a <> [] -> v <> [] -> conj rO = rO ->
  exists r, correlate rO radd rmul conj a v = Ok r /\ length r = length a + length v - 1 /\
  forall k, k < length a + length v - 1 -> nth k r rO =
    nsum rO radd (fun n => rmul (if length v - 1 <=? n + k then nth (n + k - (length v - 1)) a rO else rO) (conj (nth n v rO))) (length v).
Proof.
  intros T rO rI radd rmul rsub ropp Rth conj a v Ha Hv Hc.
  assert (1 <= length a) by (destruct a; simpl; [congruence|lia]). assert (1 <= length v) by (destruct v; simpl; [congruence|lia]).
  destruct (correlate_spec Rth conj a v 0 Ha Hv Hc ltac:(lia)) as (r & E & L & _). exists r. split; [exact E|]. split; [exact L|].
  intros k Hk. destruct (correlate_spec Rth conj a v k Ha Hv Hc Hk) as (r' & E' & _ & C). rewrite E in E'. injection E' as <-. exact C.
Qed.
Print Assumptions C45_correlate.
Example C45_nonvacuous : correlate 0%Z Z.add Z.mul (fun x => x) [1; 2; 3]%Z [0; 1; 2]%Z = Ok [2; 5; 8; 3; 0]%Z.
Proof. reflexivity. Qed.
