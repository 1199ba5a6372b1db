(** Proofs about RangeManips.v *)
From Coq Require Import ZArith Qround Floats.
From Coq Require Zquot.
From Verif Require Import Base Functional FunctionalProofs BaseQc Spec RangeManips.
Open Scope nat_scope.

Definition qlinspace := linspace Qcplus Qcminus Qcmult Qcdiv qn.
Definition qlogspace := logspace Qcplus Qcminus Qcmult Qcdiv qn.

Lemma qlinspace_length a b n : length (qlinspace a b n) = n.
Proof.
  unfold qlinspace, linspace. destruct n as [|[|n]]; try reflexivity.
  rewrite !transform1_map. unfold iota. now rewrite !map_length, seq_length.
Qed.

Lemma nth_error_seq s n i : i < n -> nth_error (seq s n) i = Some (s + i).
Proof.
  revert s i; induction n as [|n IH]; intros s i H; [lia|]. destruct i; simpl; [f_equal; lia|].
  rewrite IH by lia. f_equal. lia.
Qed.
Lemma nth_error_map_seq {A} (f : nat -> A) n i : i < n -> nth_error (map f (seq 0 n)) i = Some (f i).
Proof. intros H. rewrite nth_error_map, nth_error_seq by exact H. reflexivity. Qed.


Lemma nth_error_firstn_lt {A} (v : list A) n i : i < n -> nth_error (firstn n v) i = nth_error v i.
Proof. revert n i; induction v as [|x v IH]; intros [|n] [|i] H; simpl; try reflexivity; try lia. apply IH. lia. Qed.
Lemma nth_error_skipn_add {A} (v : list A) n i : nth_error (skipn n v) i = nth_error v (n + i).
Proof. revert n; induction v as [|x v IH]; intros [|n]; simpl; try reflexivity; [now destruct i|]. apply IH. Qed.

Lemma qlinspace_nth a b n i : 2 <= n -> i < n ->
  nth_error (qlinspace a b n) i = Some (a + qn i * ((b - a) / qn (n - 1)))%Qc.
Proof.
  intros Hn Hi. unfold qlinspace, linspace. destruct n as [|[|n]]; try lia.
  rewrite !transform1_map. unfold iota. rewrite !map_map, nth_error_map_seq by exact Hi.
  f_equal. ring.
Qed.

Lemma linspace_points : forall (start stop : Qc) (n : nat),
  length (qlinspace start stop n) = n /\
  (n = 1 -> qlinspace start stop n = [start]) /\
  (2 <= n ->
    nth_error (qlinspace start stop n) 0 = Some start /\
    nth_error (qlinspace start stop n) (n - 1) = Some stop /\
    (forall i, i < n -> nth_error (qlinspace start stop n) i = Some (start + qn i * ((stop - start) / qn (n - 1)))%Qc) /\
    (forall i x y, nth_error (qlinspace start stop n) i = Some x -> nth_error (qlinspace start stop n) (S i) = Some y ->
        (y - x = (stop - start) / qn (n - 1))%Qc /\ ((start < stop)%Qc -> (x < y)%Qc))).
Proof.
  intros a b n. split; [apply qlinspace_length|]. split; [intros ->; reflexivity|]. intros Hn.
  assert (Hnz : qn (n - 1) <> 0%Qc) by (apply qn_neq0; lia).
  split; [rewrite qlinspace_nth by lia; f_equal; change (qn 0) with 0%Qc; ring|].
  split; [rewrite qlinspace_nth by lia; f_equal; field; exact Hnz|].
  split; [intros; now apply qlinspace_nth|].
  intros i x y Hx Hy.
  assert (Hi : S i < n).
  { rewrite <- (qlinspace_length a b n). apply nth_error_Some. congruence. }
  rewrite qlinspace_nth in Hx, Hy by lia. injection Hx as <-. injection Hy as <-.
  assert (E : ((a + qn (S i) * ((b - a) / qn (n - 1))) - (a + qn i * ((b - a) / qn (n - 1))) = (b - a) / qn (n - 1))%Qc).
  { rewrite qn_S. ring. }
  split; [exact E|]. intros Hab.
  assert (Hp : (0 < (b - a) / qn (n - 1))%Qc).
  { unfold Qcdiv. assert (0 < / qn (n - 1))%Qc by (apply Qcinv_pos; rewrite <- qn_0, <- qn_lt; lia).
    assert (0 < b - a)%Qc by qc_lra. qc_nra. }
  revert E Hp. generalize ((b - a) / qn (n - 1))%Qc as s.
  intros s E Hp. rewrite qn_S in *. qc_nra.
Qed.

(** T = int: integer division of stop - start *)
Lemma linspace_int_misses_stop :
  exists start stop n, 2 <= n /\
    nth_error (linspace Z.add Z.sub Z.mul Z.quot Z.of_nat start stop n) (n - 1) <> Some stop.
Proof. exists 0%Z, 10%Z, 4. split; [lia|]. vm_compute. discriminate. Qed.

(** binary64 (Coq's primitive floats implement IEEE 754 binary64, round to nearest even) *)
Definition float_of_nat (n : nat) : float := of_uint63 (Uint63.of_Z (Z.of_nat n)).
Definition linspace_f64 := linspace PrimFloat.add PrimFloat.sub PrimFloat.mul PrimFloat.div float_of_nat.
Lemma linspace_f64_misses_stop :
  exists start stop n x, 2 <= n /\ nth_error (linspace_f64 start stop n) (n - 1) = Some x /\ PrimFloat.eqb x stop = false.
Proof.
  exists 0%float, 1%float, 50, 0x1.fffffffffffffp-1%float. split; [lia|]. split; vm_compute; reflexivity.
Qed.

Lemma linspace_f64_overflows : exists start stop x, is_finite start = true /\ is_finite stop = true /\ nth_error (linspace_f64 start stop 3) 0 = Some x /\ is_nan x = true.
Proof.
  exists (-0x1p1023)%float, (0x1p1023)%float. eexists. split; [reflexivity|]. split; [reflexivity|]. split; [vm_compute; reflexivity|vm_compute; reflexivity].
Qed.

Lemma logspace_points : forall (pow : Qc -> Qc -> Qc) (start stop base : Qc) (n : nat),
  length (qlogspace pow start stop n base) = n /\
  (n = 1 -> qlogspace pow start stop n base = [pow base start]) /\
  (2 <= n -> forall i, i < n ->
     nth_error (qlogspace pow start stop n base) i = Some (pow base (start + qn i * ((stop - start) / qn (n - 1))))%Qc).
Proof.
  intros pow a b base n. split; [|split].
  - unfold qlogspace, logspace. destruct n as [|[|n]]; try reflexivity.
    rewrite !transform1_map. unfold iota. now rewrite !map_length, seq_length.
  - intros ->. reflexivity.
  - intros Hn i Hi. unfold qlogspace, logspace. destruct n as [|[|n]]; try lia.
    rewrite !transform1_map. unfold iota. rewrite !map_map, nth_error_map_seq by exact Hi.
    do 2 f_equal. ring.
Qed.

Lemma full_spec : forall (T : Type) (n : nat) (v : T) (i : nat),
  nth_error (full n v) i = if i <? n then Some v else None.
Proof.
  intros T n v i. unfold full. revert i; induction n as [|n IH]; intros [|i]; simpl; auto.
  rewrite IH. reflexivity.
Qed.

(** *** arange *)
Lemma qfloor_spec x : (qz (qfloor x) <= x)%Qc /\ (x < qz (qfloor x) + 1)%Qc.
Proof.
  unfold qfloor. split.
  - unfold Qcle. rewrite this_qz. apply Qfloor_le.
  - unfold Qclt. rewrite this_add, this_qz, this_Q2Qc. pose proof (Qlt_floor (this x)) as H.
    rewrite inject_Z_plus in H. exact H.
Qed.
Lemma qfloor_unique x z : (qz z <= x)%Qc -> (x < qz z + 1)%Qc -> qfloor x = z.
Proof.
  intros H1 H2. destruct (qfloor_spec x) as [F1 F2].
  assert (A : (qz z < qz (qfloor x + 1))%Qc) by (rewrite qz_add; change (qz 1) with 1%Qc; qc_lra).
  assert (B : (qz (qfloor x) < qz (z + 1))%Qc) by (rewrite qz_add; change (qz 1) with 1%Qc; qc_lra).
  apply qz_lt in A, B. lia.
Qed.
Lemma qfloor_nonneg x : (0 <= x)%Qc -> (0 <= qfloor x)%Z.
Proof.
  intros H. destruct (qfloor_spec x) as [_ F2].
  assert (A : (qz 0 < qz (qfloor x + 1))%Qc) by (rewrite qz_add; change (qz 1) with 1%Qc; change (qz 0) with 0%Qc; qc_lra).
  apply qz_lt in A. lia.
Qed.

(** "x lies in the half-open interval walked from start towards stop" *)
Definition in_walk (start stop step x : Qc) : Prop :=
  ((0 < step)%Qc /\ (start <= x)%Qc /\ (x < stop)%Qc) \/ ((step < 0)%Qc /\ (x <= start)%Qc /\ (stop < x)%Qc).

Lemma div_mul_cancel a b : b <> 0%Qc -> (a / b * b = a)%Qc.
Proof. intros H. field. exact H. Qed.

Lemma quot_nonneg d step : step <> 0%Qc -> ((0 < step /\ 0 <= d) \/ (step < 0 /\ d <= 0))%Qc -> (0 <= d / step)%Qc.
Proof.
  intros Hs H. assert (Hm := div_mul_cancel d step Hs). revert Hm. generalize (d / step)%Qc as q. intros q Hm.
  apply Qcnot_lt_le. intros Hq. destruct H as [[A B]|[A B]].
  - assert (q * step < 0)%Qc by qc_nra. qc_lra.
  - assert (0 < q * step)%Qc by qc_nra. qc_lra.
Qed.

Lemma arange_ok start stop step : step <> 0%Qc ->
  exists n, arange start stop step = Ok (map (fun i => (qn i * step + start)%Qc) (seq 0 n)) /\
    (((0 < step)%Qc /\ (start <= stop)%Qc) \/ ((step < 0)%Qc /\ (stop <= start)%Qc) ->
       (qn n <= (stop - start) / step)%Qc /\ ((stop - start) / step < qn n + 1)%Qc) /\
    (((0 < step)%Qc /\ (stop < start)%Qc) \/ ((step < 0)%Qc /\ (start < stop)%Qc) -> n = 0).
Proof.
  intros Hs. unfold arange.
  destruct (qltb_spec start stop) as [H1|H1], (qltb_spec step 0) as [H2|H2], (qltb_spec stop start) as [H3|H3],
    (qltb_spec 0 step) as [H4|H4]; simpl; try (exfalso; qc_lra).
  all: try (exists 0; split; [reflexivity|]; split; [intros [[A B]|[A B]]; exfalso; qc_lra|reflexivity]).
  all: destruct (qeqb_spec step 0) as [E|_]; [contradiction|].
  all: try (exfalso; apply Hs; apply Qcle_antisym; apply Qcnot_lt_le; assumption).
  all: eexists; split; [reflexivity|].
  all: split; [|intros [[A B]|[A B]]; exfalso; qc_lra].
  all: intros _.
  all: assert (Hq : (0 <= (stop - start) / step)%Qc) by
    (apply quot_nonneg; [exact Hs|]; first [left; split; [exact H4|qc_lra] | right; split; [exact H2|qc_lra]]).
  all: unfold qabs; destruct (qltb_spec ((stop - start) / step) 0) as [Hn|_]; [exfalso; qc_lra|].
  all: destruct (qfloor_spec ((stop - start) / step)) as [F1 F2];
       rewrite qn_qz, Z2Nat.id by (apply qfloor_nonneg; exact Hq); split; assumption.
Qed.

Lemma arange_elements start stop step : step <> 0%Qc ->
  exists r, arange start stop step = Ok r /\ Forall (in_walk start stop step) r /\
    (forall i x, nth_error r i = Some x -> x = (start + qn i * step)%Qc).
Proof.
  intros Hs. destruct (arange_ok start stop step Hs) as (n & E & H1 & H0).
  eexists. split; [exact E|]. split.
  - rewrite Forall_forall. intros x Hx. rewrite in_map_iff in Hx. destruct Hx as (i & <- & Hi).
    rewrite in_seq in Hi. unfold in_walk.
    assert (Hin : (qn i + 1 <= qn n)%Qc) by (rewrite <- qn_S, <- qn_le; lia).
    assert (Hi0 := qn_nonneg i).
    assert (Hm := div_mul_cancel (stop - start) step Hs).
    destruct (Qclt_le_dec 0 step) as [Hp|Hp].
    + left. destruct (Qclt_le_dec stop start) as [Hd|Hd].
      { rewrite H0 in Hi by (left; split; assumption). lia. }
      destruct H1 as [F1 F2]; [left; split; assumption|].
      revert Hm F1 F2. generalize ((stop - start) / step)%Qc as q. intros q Hm F1 F2.
      split; [exact Hp|]. split; [qc_nra|].
      assert ((qn i * step < q * step)%Qc) by qc_nra. qc_lra.
    + right. assert (Hneg : (step < 0)%Qc).
      { destruct (Qc_eq_dec step 0) as [->|Hne]; [contradiction|]. qc_to_q. 
        destruct (Qlt_le_dec (this step) 0) as [L|L]; [exact L|]. exfalso. apply Hne. apply Qle_antisym; lra. }
      destruct (Qclt_le_dec start stop) as [Hd|Hd].
      { rewrite H0 in Hi by (right; split; assumption). lia. }
      destruct H1 as [F1 F2]; [right; split; assumption|].
      revert Hm F1 F2. generalize ((stop - start) / step)%Qc as q. intros q Hm F1 F2.
      split; [exact Hneg|]. split; [qc_nra|].
      assert ((q * step < qn i * step)%Qc) by qc_nra. qc_lra.
  - intros i x Hx. assert (Hi : i < n).
    { rewrite <- (seq_length n 0), <- (map_length (fun i => (qn i * step + start)%Qc)). apply nth_error_Some. congruence. }
    rewrite nth_error_map_seq in Hx by exact Hi. injection Hx as <-. ring.
Qed.

(** completeness up to one point: at most one point of the walk is missing, and none when the interval is a whole number
    of steps *)
Lemma arange_missing start stop step r : step <> 0%Qc -> arange start stop step = Ok r ->
  forall i, in_walk start stop step (start + qn i * step)%Qc -> i <= length r.
Proof.
  intros Hs Er i Hw. destruct (arange_ok start stop step Hs) as (n & E & H1 & H0).
  rewrite Er in E. injection E as ->. rewrite map_length, seq_length.
  assert (Hi0 := qn_nonneg i).
  assert (Hm := div_mul_cancel (stop - start) step Hs).
  assert (G : (qn i < qn n + 1)%Qc).
  { destruct Hw as [(Hp & A & B)|(Hp & A & B)].
    - destruct H1 as [F1 F2]; [left; split; [assumption|qc_lra]|].
      revert Hm F1 F2. generalize ((stop - start) / step)%Qc as q. intros q Hm F1 F2.
      assert (Hlt : (qn i * step < q * step)%Qc) by qc_lra.
      apply Qcnot_le_lt. intros C. assert ((q * step <= qn i * step)%Qc) by qc_nra. qc_lra.
    - destruct H1 as [F1 F2]; [right; split; [assumption|qc_lra]|].
      revert Hm F1 F2. generalize ((stop - start) / step)%Qc as q. intros q Hm F1 F2.
      assert (Hlt : (q * step < qn i * step)%Qc) by qc_lra.
      apply Qcnot_le_lt. intros C. assert ((qn i * step <= q * step)%Qc) by qc_nra. qc_lra. }
  rewrite <- qn_S, <- qn_lt in G. lia.
Qed.

Lemma arange_whole start step n : step <> 0%Qc ->
  arange start (start + qn n * step)%Qc step = Ok (map (fun i => (start + qn i * step)%Qc) (seq 0 n)) /\
  (forall i, in_walk start (start + qn n * step)%Qc step (start + qn i * step)%Qc <-> i < n).
Proof.
  intros Hs. split.
  - destruct (arange_ok start (start + qn n * step)%Qc step Hs) as (m & E & H1 & H0). rewrite E.
    assert (Hq : ((start + qn n * step - start) / step = qn n)%Qc) by (field; exact Hs).
    rewrite Hq in H1. clear Hq. assert (Hn0 := qn_nonneg n).
    assert (Hmn : m = n).
    { destruct H1 as [F1 F2].
      - destruct (Qclt_le_dec 0 step) as [Hp|Hp]; [left|right]; (split; [|qc_nra]); [exact Hp|].
        destruct (Qcle_lt_or_eq _ _ Hp) as [L|L]; [exact L|congruence].
      - rewrite <- qn_le in F1. rewrite <- qn_S, <- qn_lt in F2. lia. }
    subst m. f_equal. apply map_ext. intros; ring.
  - intros i. unfold in_walk. rewrite qn_lt. assert (Hi0 := qn_nonneg i). split.
    + intros [(Hp & A & B)|(Hp & A & B)]; apply Qcnot_le_lt; intros C.
      * assert ((qn n * step <= qn i * step)%Qc) by qc_nra. qc_lra.
      * assert ((qn i * step <= qn n * step)%Qc) by qc_nra. qc_lra.
    + intros L. destruct (Qclt_le_dec 0 step) as [Hp|Hp].
      * left. repeat split; [exact Hp|qc_nra|]. assert ((qn i * step < qn n * step)%Qc) by qc_nra. qc_lra.
      * assert (Hneg : (step < 0)%Qc) by (destruct (Qcle_lt_or_eq _ _ Hp) as [L'|L']; [exact L'|congruence]).
        right. repeat split; [exact Hneg|qc_nra|]. assert ((qn n * step < qn i * step)%Qc) by qc_nra. qc_lra.
Qed.

Lemma arange_zero_step start stop : arange start stop 0%Qc = UB.
Proof.
  unfold arange. replace (qltb 0 0) with false by reflexivity. rewrite !andb_false_r. simpl. reflexivity.
Qed.

Lemma arange_misses :
  exists start stop step i r, arange start stop step = Ok r /\ in_walk start stop step (start + qn i * step)%Qc /\
    ~ In (start + qn i * step)%Qc r.
Proof.
  exists 0%Qc, 1%Qc, (Q2Qc (3 # 10)), 3. eexists.
  split; [reflexivity|split].
  - left. repeat split; vm_compute; congruence.
  - intros H. simpl in H. repeat (destruct H as [H|H]; [apply Qc_eq_iff in H; vm_compute in H; discriminate|]). exact H.
Qed.

Lemma arange_int_spec (start stop step : Z) :
  (step = 0%Z -> arange_int start stop step = UB) /\
  (forall n, (0 <= n)%Z -> step <> 0%Z -> (Z.abs (stop - start - n * step) < Z.abs step)%Z -> ((stop - start - n * step) * step >= 0)%Z ->
     arange_int start stop step = Ok (map (fun i => (start + Z.of_nat i * step)%Z) (seq 0 (Z.to_nat n)))) /\
  ((0 < step /\ stop < start)%Z \/ (step < 0 /\ start < stop)%Z -> arange_int start stop step = Ok []).
Proof.
  unfold arange_int. split; [|split].
  - intros ->. rewrite !andb_false_r. reflexivity.
  - intros n Hn Hs H1 H2. set (r := (stop - start - n * step)%Z) in *. assert (E : (stop - start = n * step + r)%Z) by (unfold r; ring).
    replace ((start <? stop)%Z && (step <? 0)%Z || (stop <? start)%Z && (0 <? step)%Z) with false.
    + rewrite (proj2 (Z.eqb_neq step 0) Hs). apply (f_equal Ok).
      assert (Q : Z.quot (stop - start) step = n).
      { symmetry. apply (Coq.ZArith.Zquot.Zquot_unique_full _ _ _ r); [|lia]. unfold Coq.ZArith.Zquot.Remainder. destruct (Z.lt_trichotomy step 0) as [S'|[S'|S']]; [right|lia|left]; split; try nia; lia. }
      rewrite Q, Z.abs_eq by exact Hn. apply map_ext. intros i. lia.
    + symmetry. apply orb_false_iff. split; apply andb_false_iff; destruct (Z.ltb_spec start stop), (Z.ltb_spec stop start), (Z.ltb_spec step 0), (Z.ltb_spec 0 step); auto; exfalso; nia.
  - intros [[H1 H2]|[H1 H2]].
    + rewrite (proj2 (Z.ltb_lt _ _) H2), (proj2 (Z.ltb_lt _ _) H1). rewrite orb_true_r. reflexivity.
    + rewrite (proj2 (Z.ltb_lt _ _) H2), (proj2 (Z.ltb_lt _ _) H1). reflexivity.
Qed.
Lemma arange_int_misses :
  exists start stop step r, arange_int start stop step = Ok r /\ (0 < step)%Z /\
    exists i, (start <= start + i * step < stop)%Z /\ ~ In (start + i * step)%Z r.
Proof.
  exists 0%Z, 10%Z, 3%Z. eexists. split; [reflexivity|]. split; [lia|]. exists 3%Z. split; [lia|].
  vm_compute. intuition discriminate.
Qed.

(** *** concatenate, flip, subvector *)
Lemma transform1_id {T} (a : list T) : transform1 (fun x => x) a = a.
Proof. rewrite transform1_map. apply map_id. Qed.

Lemma concatenate_same : forall (T : Type) (zero : T) (a b : list T),
  concatenate_cc (fun x => x) a b = a ++ b /\
    concatenate_rv1 true false true zero (fun x => x) a b = a ++ b /\
    concatenate_rv2 true false true (fun x => x) a b = a ++ b.
Proof.
  intros. unfold concatenate_cc, concatenate_rv1, concatenate_rv2. simpl. rewrite !transform1_id. auto.
Qed.

Lemma concatenate_conv : forall (T U : Type) (zero : T) (conv : U -> T) (a : list T) (u : list U),
  concatenate_cc conv a u = a ++ map conv u /\
    concatenate_rv1 false false true zero conv a u = a ++ map conv u /\
    concatenate_rv1 false true false zero conv a u = a ++ map conv u /\
    concatenate_rv2 false false true conv u a = map conv u ++ a /\
    concatenate_rv2 false true false conv u a = map conv u ++ a.
Proof.
  intros. unfold concatenate_cc, concatenate_rv1, concatenate_rv2. simpl. rewrite !transform1_map. auto.
Qed.

Lemma concatenate_fold_concat : forall (T : Type) (rest : list (list T)) (a : list T),
  concatenate_fold a rest = concat (a :: rest).
Proof.
  intros T. induction rest as [|b r IH]; intros a; [simpl; now rewrite app_nil_r|].
  simpl. rewrite IH. unfold concatenate_rv2. simpl. now rewrite transform1_id.
Qed.

Lemma reverse_copy_rev {T} (a acc : list T) : reverse_copy a acc = rev a ++ acc.
Proof. revert acc; induction a as [|x a IH]; intros acc; simpl; [reflexivity|]. rewrite IH, <- app_assoc. reflexivity. Qed.

Lemma flip_spec : forall (T : Type) (vc : valcat) (a : list T),
  length (fst (flip vc a)) = length a /\
    (forall i, i < length a -> nth_error (fst (flip vc a)) i = nth_error a (length a - 1 - i)) /\
    (forall vc', fst (flip vc' (fst (flip vc a))) = a) /\
    (forall b, fst (flip vc (a ++ b)) = fst (flip vc b) ++ fst (flip vc a)).
Proof.
  intros T vc a.
  assert (R : forall vc (x : list T), fst (flip vc x) = rev x).
  { intros [] x; simpl; now rewrite reverse_copy_rev, app_nil_r. }
  rewrite !R. split; [apply rev_length|]. split; [|split].
  - intros i Hi. destruct a as [|d a']; [simpl in Hi; lia|]. set (a := d :: a') in *.
    rewrite (nth_error_nth' (rev a) d) by (now rewrite rev_length). rewrite rev_nth by exact Hi.
    rewrite (nth_error_nth' a d) by lia. do 2 f_equal. lia.
  - intros vc'. rewrite R. apply rev_involutive.
  - intros b. rewrite !R. apply rev_app_distr.
Qed.

Lemma flip_argument : 
  (forall (T : Type) (a : list T), snd (flip ConstLvalue a) = a) /\
    (exists a : list nat, snd (flip Lvalue a) <> a).
Proof. split; [reflexivity|]. exists [1; 2]. simpl. discriminate. Qed.

Lemma subvector_spec : forall (T : Type) (v : list T) (len offset : Z),
  let n := Z.min len (Z.of_nat (length v)) in
  (0 <= offset -> 0 <= len -> offset + n <= Z.of_nat (length v) ->
    exists r, subvector v len offset = Ok r /\ Z.of_nat (length r) = n /\
    forall i, (0 <= i < n)%Z -> nth_error r (Z.to_nat i) = nth_error v (Z.to_nat (offset + i)))%Z /\
    (~ (0 <= offset /\ 0 <= len /\ offset + n <= Z.of_nat (length v))%Z -> subvector v len offset = UB).
Proof.
  intros T v len offset n. unfold subvector. fold n. split.
  - intros H1 H2 H3.
    destruct (Z.ltb_spec offset 0); [lia|]. destruct (Z.ltb_spec n 0); [lia|].
    destruct (Z.ltb_spec (Z.of_nat (length v)) (offset + n)); [lia|]. simpl.
    eexists. split; [reflexivity|]. rewrite firstn_length, skipn_length. split; [lia|].
    intros i Hi. rewrite nth_error_firstn_lt, nth_error_skipn_add by lia. f_equal. lia.
  - intros H. destruct (Z.ltb_spec offset 0); [reflexivity|]. destruct (Z.ltb_spec n 0); [reflexivity|].
    destruct (Z.ltb_spec (Z.of_nat (length v)) (offset + n)); [reflexivity|]. exfalso. apply H. lia.
Qed.
