(** Proofs about the FFT helpers. *)
From Coq Require Import ZArith Permutation Znumtheory.
From Verif Require Import Base Functional FunctionalProofs Spec BaseQc NumericFacts StatsVarFacts SumLib ConvolveFacts Polynomial PolynomialFacts Fft.
From Coq Require Import Lqa.
Open Scope nat_scope.

Lemma quot2 n : Z.quot (Z.of_nat n) 2 = Z.of_nat (n / 2).
Proof. rewrite Z.quot_div_nonneg by lia. rewrite div_Zdiv by lia. reflexivity. Qed.

Section Shift.
Context {T : Type} (zero : T).
Definition rot (k : nat) (a : list T) : list T := skipn k a ++ firstn k a.
Lemma rotate_ok a k : k <= length a -> rotate a (Z.of_nat k) = Ok (rot k a).
Proof.
  intros H. unfold rotate. destruct (Z.leb_spec 0 (Z.of_nat k)); [|lia]. destruct (Z.leb_spec (Z.of_nat k) (Z.of_nat (length a))); [|lia].
  cbn [andb]. now rewrite Nat2Z.id.
Qed.
Lemma copy_at_gen (src : list T) : forall dst pos, pos + length src <= length dst ->
  copy_at dst pos src = Ok (firstn pos dst ++ src ++ skipn (pos + length src) dst).
Proof. apply copy_at_spec. Qed.
Lemma copy_range_ok (a : list T) from to res pos : from <= to -> to <= length a -> pos + (to - from) <= length res ->
  copy_range a (Z.of_nat from) (Z.of_nat to) res (Z.of_nat pos) =
  Ok (firstn pos res ++ firstn (to - from) (skipn from a) ++ skipn (pos + (to - from)) res).
Proof.
  intros H1 H2 H3. unfold copy_range.
  destruct (Z.leb_spec 0 (Z.of_nat from)); [|lia]. destruct (Z.leb_spec (Z.of_nat from) (Z.of_nat to)); [|lia].
  destruct (Z.leb_spec (Z.of_nat to) (Z.of_nat (length a))); [|lia]. destruct (Z.leb_spec 0 (Z.of_nat pos)); [|lia]. cbn [andb].
  replace (Z.to_nat (Z.of_nat to - Z.of_nat from)) with (to - from) by lia. rewrite !Nat2Z.id.
  assert (L : length (firstn (to - from) (skipn from a)) = to - from) by (rewrite firstn_length, skipn_length; lia).
  rewrite copy_at_gen by (rewrite L; lia). now rewrite L.
Qed.
(** two copies that exchange the two parts of a *)
Lemma two_copies a off : off <= length a ->
  (do r <- copy_range a (Z.of_nat off) (Z.of_nat (length a)) (repeat zero (length a)) 0;
   copy_range a 0 (Z.of_nat off) r (Z.of_nat (length a - off))) = Ok (rot off a).
Proof.
  intros H. change 0%Z with (Z.of_nat 0). rewrite copy_range_ok by (rewrite ?repeat_length; lia). cbn [bind firstn app].
  assert (L1 : length (skipn off a) = length a - off) by (rewrite skipn_length; reflexivity).
  rewrite (firstn_all2 (skipn off a)) by lia. rewrite Nat.add_0_l.
  rewrite copy_range_ok; rewrite ?app_length, ?skipn_length, ?repeat_length; try lia.
  rewrite Nat.sub_0_r. cbn [skipn]. rewrite firstn_app, L1, Nat.sub_diag. cbn [firstn]. rewrite app_nil_r.
  rewrite (firstn_all2 (skipn off a)) by lia. unfold rot. f_equal. f_equal.
  rewrite (skipn_all2 (skipn off a ++ _)); [apply app_nil_r|]. rewrite app_length, !skipn_length, repeat_length. lia.
Qed.
Lemma half_le n : n / 2 <= n.
Proof. apply Nat.div_le_upper_bound; lia. Qed.
Lemma half_up n : (n + 1) / 2 = n - n / 2.
Proof.
  pose proof (Nat.div_mod n 2 ltac:(lia)). pose proof (Nat.mod_upper_bound n 2 ltac:(lia)).
  pose proof (Nat.div_mod (n + 1) 2 ltac:(lia)). pose proof (Nat.mod_upper_bound (n + 1) 2 ltac:(lia)). lia.
Qed.
Lemma fftshift_inplace_spec a : fftshift_inplace a = Ok (rot ((length a + 1) / 2) a).
Proof. unfold fftshift_inplace. rewrite quot2. apply rotate_ok. rewrite half_up. lia. Qed.
Lemma ifftshift_inplace_spec a : ifftshift_inplace a = Ok (rot (length a / 2) a).
Proof. unfold ifftshift_inplace. rewrite quot2. apply rotate_ok, half_le. Qed.
Lemma ifftshift_const_spec a : ifftshift_const zero a = Ok (rot (length a / 2) a).
Proof.
  unfold ifftshift_const. rewrite !quot2, half_up. apply two_copies, half_le.
Qed.
Lemma fftshift_const_spec a : a <> [] -> fftshift_const zero a = Ok (rot ((length a + 1) / 2) a).
Proof.
  intros H. assert (1 <= length a) by (destruct a; simpl; [congruence|lia]).
  unfold fftshift_const, size_minus_1. replace (Z.of_nat (length a) - 1)%Z with (Z.of_nat (length a - 1)) by lia. rewrite !quot2.
  assert (E : (length a - 1) / 2 + 1 = length a - length a / 2).
  { rewrite <- half_up. replace (length a + 1) with (length a - 1 + 1 * 2) by lia. rewrite Nat.div_add by lia. reflexivity. }
  replace (Z.of_nat ((length a - 1) / 2) + 1)%Z with (Z.of_nat (length a - length a / 2)) by lia.
  rewrite half_up. pose proof (two_copies a (length a - length a / 2) ltac:(lia)) as W.
  replace (length a - (length a - length a / 2)) with (length a / 2) in W by (pose proof (half_le (length a)); lia). exact W.
Qed.
Lemma fftshift_const_empty : fftshift_const zero [] = UB.
Proof. reflexivity. Qed.
Lemma rot_rot a k : k <= length a -> rot (length a - k) (rot k a) = a.
Proof.
  intros H. unfold rot at 1. unfold rot.
  assert (L : length (skipn k a) = length a - k) by apply skipn_length.
  rewrite skipn_app, firstn_app, L, Nat.sub_diag. cbn [skipn firstn]. rewrite (skipn_all2 (n := length a - k) (skipn k a)) by lia. rewrite (firstn_all2 (n := length a - k) (skipn k a)) by lia.
  rewrite app_nil_r. cbn [app]. apply firstn_skipn.
Qed.
Lemma rot_length k a : length (rot k a) = length a.
Proof. unfold rot. rewrite app_length, Nat.add_comm, <- app_length, firstn_skipn. reflexivity. Qed.
Lemma rot_perm k a : Permutation (rot k a) a.
Proof. unfold rot. rewrite Permutation_app_comm, firstn_skipn. reflexivity. Qed.
Lemma nth_skipn_gen k a i (d : T) : nth i (skipn k a) d = nth (k + i) a d.
Proof. revert k; induction a as [|x a IH]; intros [|k]; simpl; auto; destruct i; reflexivity. Qed.
Lemma nth_firstn_gen k a i (d : T) : i < k -> nth i (firstn k a) d = nth i a d.
Proof. revert k i; induction a as [|x a IH]; intros [|k] [|i] H; simpl; auto; try lia. apply IH. lia. Qed.
Lemma rot_nth k a i d : k <= length a -> i < length a -> nth i (rot k a) d = nth (if i <? length a - k then i + k else i + k - length a) a d.
Proof.
  intros Hk Hi. unfold rot. destruct (Nat.ltb_spec i (length a - k)).
  - rewrite app_nth1 by (rewrite skipn_length; lia). rewrite nth_skipn_gen. f_equal. lia.
  - rewrite app_nth2; rewrite skipn_length; [|lia]. rewrite nth_firstn_gen by lia. f_equal. lia.
Qed.
Lemma zero_padding_const_spec v n : zero_padding_const zero v n = Ok (firstn n v ++ repeat zero (n - length v)).
Proof.
  unfold zero_padding_const. change 0%Z with (Z.of_nat 0). rewrite copy_range_ok by (rewrite ?repeat_length; lia).
  cbn [firstn app skipn]. rewrite Nat.sub_0_r, Nat.add_0_l. f_equal. f_equal.
  - destruct (Nat.min_spec n (length v)) as [[L ->]|[L ->]]; [reflexivity|]. rewrite !firstn_all2 by lia. reflexivity.
  - assert (G : forall m k, skipn m (repeat zero k) = repeat zero (k - m)).
    { induction m as [|m IH]; intros [|k]; simpl; auto. }
    rewrite G. f_equal. lia.
Qed.
Lemma zero_padding_rvalue_spec v n : zero_padding_rvalue zero v n = firstn n v ++ repeat zero (n - length v).
Proof. reflexivity. Qed.
End Shift.

(** *** frequencies over exact rationals *)
Definition qfftfreq := fftfreq 0%Qc Qcmult Qcdiv (fun a b => qltb b a) qz (fun x => (x + 1)%Qc).
Definition qrfftfreq := rfftfreq 0%Qc Qcmult Qcdiv (fun a b => qltb b a) qz (fun x => (x + 1)%Qc).
Lemma iota_spec n : forall z, iota (fun x => (x + 1)%Qc) n (qz z) = map (fun i => qz (z + Z.of_nat i)) (seq 0 n).
Proof.
  induction n as [|n IH]; intros z; [reflexivity|]. cbn [iota seq map]. rewrite Z.add_0_r. f_equal.
  replace (qz z + 1)%Qc with (qz (z + 1)). 2:{ change 1%Qc with (qz 1). now rewrite qz_add. }
  rewrite IH, <- seq_shift, map_map. apply map_ext. intros i. f_equal. lia.
Qed.
Lemma qfftfreq_ok n d : 1 <= n -> (0 < d)%Qc ->
  exists f, qfftfreq n d = Ok f /\ length f = n /\
  forall i, i < n -> nth i f 0%Qc = (qz (if i <? (n + 1) / 2 then Z.of_nat i else Z.of_nat i - Z.of_nat n) / (qz (Z.of_nat n) * d))%Qc.
Proof.
  intros Hn Hd. unfold qfftfreq, fftfreq, require. destruct (Nat.ltb_spec 0 n); [|lia]. destruct (qltb_spec 0 d); [|qc_lra].
  rewrite ifftshift_inplace_spec, transform1_map. rewrite quot2.
  set (y := map _ _). assert (L : length y = n) by (unfold y; rewrite map_length, iota_spec, map_length, seq_length; reflexivity).
  eexists. split; [reflexivity|]. split; [now rewrite rot_length|]. intros i Hi.
  rewrite rot_nth by (rewrite L; auto using half_le). rewrite L. rewrite half_up.
  pose proof (half_le n) as Hh. set (h := n / 2) in *.
  assert (Y : forall j, j < n -> nth j y 0%Qc = (qz (Z.of_nat j - Z.of_nat h) / (d * qz (Z.of_nat n)))%Qc).
  { intros j Hj. unfold y. rewrite iota_spec, map_map.
    rewrite (nth_indep _ 0%Qc (qz (- Z.of_nat h + Z.of_nat 0) / (d * qz (Z.of_nat n)))%Qc) by (rewrite map_length, seq_length; exact Hj).
    rewrite (map_nth (fun i => qz (- Z.of_nat h + Z.of_nat i) / (d * qz (Z.of_nat n)))%Qc). rewrite seq_nth by exact Hj.
    do 2 f_equal. lia. }
  destruct (Nat.ltb_spec i (n - h)).
  - rewrite Y by lia. rewrite (Qcmult_comm d). do 2 f_equal. lia.
  - rewrite Y by lia. rewrite (Qcmult_comm d). do 2 f_equal. lia.
Qed.
Lemma qz_lt a b : (a < b)%Z -> (qz a < qz b)%Qc.
Proof. intros H. assert (P := qz_pos (b - a) ltac:(lia)). replace b with (a + (b - a))%Z by lia. rewrite qz_add. qc_lra. Qed.
Lemma qdiv_lt a b c : (0 < c)%Qc -> (a < b)%Qc -> (a / c < b / c)%Qc.
Proof.
  intros Hc Hab. unfold Qcdiv. assert (Hi : (0 < / c)%Qc).
  { apply Qcnot_le_lt. intros H. assert (E : (c * / c = 1)%Qc) by (apply Qcmult_inv_r; intros ->; qc_lra).
    assert ((c * / c <= 0)%Qc) by (replace 0%Qc with (c * 0)%Qc by ring; rewrite (Qcmult_comm c), (Qcmult_comm c 0); apply Qcmult_le_compat_r; [exact H|qc_lra]).
    rewrite E in H0. qc_lra. }
  apply Qcmult_lt_compat_r; assumption.
Qed.
(** fftshift(fftfreq) = (i - n/2)/(n d), strictly increasing *)
Lemma qfftfreq_shifted n d : 1 <= n -> (0 < d)%Qc ->
  exists f g, qfftfreq n d = Ok f /\ fftshift_inplace f = Ok g /\ length g = n /\
  (forall i, i < n -> nth i g 0%Qc = (qz (Z.of_nat i - Z.of_nat (n / 2)) / (qz (Z.of_nat n) * d))%Qc) /\
  (forall i j, i < j < n -> (nth i g 0 < nth j g 0)%Qc).
Proof.
  intros Hn Hd. destruct (qfftfreq_ok n d Hn Hd) as (f & E & L & C). exists f, (rot ((length f + 1) / 2) f).
  split; [exact E|]. split; [apply fftshift_inplace_spec|]. split; [now rewrite rot_length|].
  pose proof (half_le n) as Hh.
  assert (G : forall i, i < n -> nth i (rot ((length f + 1) / 2) f) 0%Qc = (qz (Z.of_nat i - Z.of_nat (n / 2)) / (qz (Z.of_nat n) * d))%Qc).
  { intros i Hi. rewrite half_up. rewrite rot_nth by (rewrite L; lia). rewrite L. rewrite half_up in C. set (h := n / 2) in *.
    destruct (Nat.ltb_spec i (n - (n - h))).
    - rewrite C by lia. destruct (Nat.ltb_spec (i + (n - h)) (n - h)); [lia|]. do 2 f_equal. lia.
    - rewrite C by lia. destruct (Nat.ltb_spec (i + (n - h) - n) (n - h)); [|lia]. do 2 f_equal. lia. }
  split; [exact G|]. intros i j Hij. rewrite !G by lia. apply qdiv_lt.
  - assert (P := qz_pos (Z.of_nat n) ltac:(lia)). apply Qcmult_lt_compat_r with (z := d) in P; [|exact Hd]. replace (0 * d)%Qc with 0%Qc in P by ring. exact P.
  - apply qz_lt. lia.
Qed.
Lemma qrfftfreq_ok n d : 1 <= n -> (0 < d)%Qc ->
  qrfftfreq n d = Ok (map (fun i => (qz (Z.of_nat i) / (qz (Z.of_nat n) * d))%Qc) (seq 0 (n / 2 + 1))).
Proof.
  intros Hn Hd. unfold qrfftfreq, rfftfreq, require. destruct (Nat.ltb_spec 0 n); [|lia]. destruct (qltb_spec 0 d); [|qc_lra].
  rewrite transform1_map, iota_spec, map_map. f_equal. apply map_ext. intros i. rewrite (Qcmult_comm d). reflexivity.
Qed.
