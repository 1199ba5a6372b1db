From Coq Require Import ZArith List Lia.
From Verif Require Import Base Functional FunctionalProofs Numeric NumericFacts Convolve Polynomial PolynomialFacts FixedSize.
Import ListNotations.
Open Scope nat_scope.
Set Implicit Arguments.

Lemma list_nth_ext (A : Type) (d : A) : forall l m : list A, length l = length m -> (forall k, k < length l -> nth k l d = nth k m d) -> l = m.
Proof. intros l m H E. apply (nth_ext l m d d H E). Qed.
Lemma at_ub_nth' (A : Type) (l : list A) i d : i < length l -> at_ub l i = Ok (nth i l d).
Proof. intros H. unfold at_ub. rewrite (nth_error_nth' l d H). reflexivity. Qed.
Lemma nth_upd (A : Type) (d x : A) : forall (v : list A) i k, i < length v -> nth k (upd v i x) d = if k =? i then x else nth k v d.
Proof. induction v as [|y v IH]; intros [|i] [|k] H; simpl in *; try lia; auto. apply IH. lia. Qed.
Lemma set_ub_upd (A : Type) (v : list A) i x : i < length v -> set_ub v i x = Ok (upd v i x).
Proof. intros H. unfold set_ub. destruct (Nat.ltb_spec i (length v)); [reflexivity|lia]. Qed.
Lemma copy_all (A : Type) (z : A) (l : list A) n : n = length l -> copy_at (repeat z n) 0 l = Ok l.
Proof.
  intros ->. rewrite copy_at_spec by (rewrite repeat_length; lia). simpl firstn. rewrite skipn_all2 by (rewrite repeat_length; lia).
  now rewrite app_nil_r.
Qed.

Section Facts.
Variable T : Type.
Variables (zero one : T) (add sub mul div : T -> T -> T) (opp : T -> T) (ofnat : nat -> T).

(** lengths preserved by the division loops *)
Lemma upd_length (A : Type) (x : A) : forall v i, length (upd v i x) = length v.
Proof. induction v as [|y v IH]; intros [|i]; simpl; auto. Qed.
Lemma div_inner_len v d k : forall cnt tmp r, div_inner sub mul v d k cnt tmp = Ok r -> length r = length tmp.
Proof.
  induction cnt as [|c IH]; intros tmp r; cbn [div_inner]; [intros E; now injection E as <-|].
  destruct (at_ub tmp (k + c)); [|discriminate..]. destruct (at_ub v (k + c - k)); [|discriminate..]. cbn [bind].
  unfold set_ub. destruct (k + c <? length tmp); [|discriminate]. cbn [bind]. intros E. apply IH in E. now rewrite upd_length in E.
Qed.
Lemma div_outer_len v n s : forall cnt tmp r, div_outer sub mul v n s cnt tmp = Ok r -> length r = length tmp.
Proof.
  induction cnt as [|c IH]; intros tmp r; cbn [div_outer]; [intros E; now injection E as <-|].
  destruct (at_ub tmp (n + c)); [|discriminate..]. cbn [bind].
  destruct (div_inner sub mul v (mul s a) c n tmp) eqn:E; [|discriminate..]. cbn [bind]. intros E2. apply IH in E2.
  now rewrite E2, (div_inner_len _ _ _ _ _ E).
Qed.
Lemma div_inner_ok v d k : forall cnt tmp, k + cnt <= length tmp -> cnt <= length v -> exists r, div_inner sub mul v d k cnt tmp = Ok r.
Proof.
  induction cnt as [|c IH]; intros tmp H1 H2; cbn [div_inner]; [eauto|].
  rewrite (at_ub_nth' tmp zero) by lia. rewrite (at_ub_nth' v zero) by lia. cbn [bind]. rewrite set_ub_upd by lia. cbn [bind].
  apply IH; [rewrite upd_length; lia|lia].
Qed.
Lemma div_outer_ok v n s : forall cnt tmp, n + cnt <= length tmp -> n <= length v -> exists r, div_outer sub mul v n s cnt tmp = Ok r.
Proof.
  induction cnt as [|c IH]; intros tmp H1 H2; cbn [div_outer]; [eauto|].
  rewrite (at_ub_nth' tmp zero) by lia. cbn [bind].
  destruct (@div_inner_ok v (mul s (nth (n + c) tmp zero)) c n tmp) as [r E]; [lia|lia|]. rewrite E. cbn [bind].
  apply IH; [|lia]. rewrite (div_inner_len _ _ _ _ _ E). lia.
Qed.
Lemma polydiv_impl_ok u v : v <> [] -> length v <= length u -> exists r, polydiv_impl one sub mul div u v = Ok r /\ length r = length u.
Proof.
  intros H L. unfold polydiv_impl. assert (0 < length v) by (destruct v; simpl; [congruence|lia]).
  rewrite (at_ub_nth' v zero) by lia. cbn [bind].
  destruct (@div_outer_ok v (length v - 1) (div one (nth (length v - 1) v zero)) (length u - 1 - (length v - 1) + 1) u) as [r E]; [lia|lia|].
  exists r. split; [exact E|]. exact (div_outer_len _ _ _ _ _ E).
Qed.

Lemma polydiv_fixed_spec u v : u <> [] -> v <> [] ->
  polydiv_fixed zero one sub mul div u v = polydiv zero one sub mul div u v /\
  exists q r, polydiv zero one sub mul div u v = Ok (q, r) /\
    length q = (if length v =? 1 then length u else if length u <? length v then 1 else length u - length v + 1) /\
    length r = (if length v =? 1 then 1 else if length u <? length v then length u else length v - 1).
Proof.
  intros Hu Hv. assert (0 < length u) by (destruct u; simpl; [congruence|lia]). assert (0 < length v) by (destruct v; simpl; [congruence|lia]).
  unfold polydiv_fixed, polydiv, require, zero_array.
  destruct (Nat.eqb_spec (length u) 0); [lia|]. destruct (Nat.eqb_spec (length v) 0); [lia|]. cbn [orb negb].
  destruct (Nat.eqb_spec (length v) 1).
  - rewrite (at_ub_nth' v zero) by lia. cbn [bind repeat]. split; [reflexivity|]. do 2 eexists. split; [reflexivity|].
    rewrite transform1_map, map_length. auto.
  - destruct (Nat.ltb_spec (length u) (length v)).
    + split; [reflexivity|]. do 2 eexists. split; [reflexivity|]. auto.
    + destruct (@polydiv_impl_ok u v Hv H1) as (r & E & L). rewrite E. cbn [bind]. rewrite !repeat_length.
      assert (L1 : length (firstn (length v - 1) r) = length v - 1) by (rewrite firstn_length; lia).
      assert (L2 : length (skipn (length v - 1) r) = length u - length v + 1) by (rewrite skipn_length; lia).
      rewrite copy_all by lia. cbn [bind]. rewrite copy_all by lia. cbn [bind]. split; [reflexivity|].
      do 2 eexists. split; [reflexivity|]. auto.
Qed.

(** polyder *)
Lemma der_fill_spec P : forall cnt i res, i + cnt <= length res -> length res <= length P ->
  exists r, der_fill mul ofnat P i cnt res = Ok r /\ length r = length res /\
  forall k, k < length res -> nth k r zero = if (i <=? k) && (k <? i + cnt) then mul (ofnat (length P - 1 - k)) (nth k P zero) else nth k res zero.
Proof.
  induction cnt as [|c IH]; intros i res H1 H2; cbn [der_fill].
  - exists res. split; [reflexivity|]. split; [reflexivity|]. intros k _. destruct (Nat.leb_spec i k), (Nat.ltb_spec k (i + 0)); cbn [andb]; auto; lia.
  - rewrite (at_ub_nth' P zero) by lia. cbn [bind]. rewrite set_ub_upd by lia. cbn [bind].
    destruct (IH (S i) (upd res i (mul (ofnat (length P - 1 - i)) (nth i P zero)))) as (r & E & L & C); [rewrite upd_length; lia..|].
    rewrite upd_length in L. exists r. split; [exact E|]. split; [exact L|]. intros k Hk. rewrite C by (rewrite upd_length; lia). rewrite nth_upd by lia.
    destruct (Nat.leb_spec (S i) k), (Nat.ltb_spec k (S i + c)), (Nat.leb_spec i k), (Nat.ltb_spec k (i + S c)), (Nat.eqb_spec k i); cbn [andb]; try lia; auto.
    now subst.
Qed.
Lemma transform2_nth (A B C : Type) (da : A) (db : B) (dc : C) (op : A -> B -> C) : forall (a : list A) (b : list B), length a <= length b ->
  exists r, transform2 op a b = Ok r /\ length r = length a /\ forall k, k < length a -> nth k r dc = op (nth k a da) (nth k b db).
Proof.
  induction a as [|x a IH]; intros [|y b] H; simpl in *; try lia; try (exists []; now repeat split; intros; lia).
  destruct (IH b ltac:(lia)) as (r & E & L & C0). rewrite E. cbn [bind]. exists (op x y :: r). split; [reflexivity|]. split; [simpl; lia|].
  intros [|k] Hk; simpl; [reflexivity|]. apply C0. lia.
Qed.
Hypothesis mul_comm : forall x y, mul x y = mul y x.
Lemma polyder_once_fixed_spec P : P <> [] -> exists Q, polyder_once_fixed zero mul ofnat P = Ok Q /\ polyder_once mul ofnat P = Ok Q /\ length Q = length P - 1.
Proof.
  intros HP. assert (H : 0 < length P) by (destruct P; simpl; [congruence|lia]).
  unfold polyder_once_fixed, polyder_once, require, zero_array. destruct (Nat.eqb_spec (length P) 0); [lia|]. cbn [negb].
  destruct (@der_fill_spec P (length P - 1) 0 (repeat zero (length P - 1))) as (r & E & L & C); [rewrite repeat_length; lia..|].
  rewrite repeat_length in L, C. exists r. split; [exact E|]. split; [|exact L].
  destruct (@transform2_nth T T T zero zero zero mul P (map (fun i => ofnat (length P - 1 - i)) (seq 0 (length P)))) as (s & Es & Ls & Cs); [rewrite map_length, seq_length; lia|].
  rewrite Es. cbn [bind]. apply (f_equal Ok). apply (list_nth_ext zero); rewrite firstn_length; [lia|]. intros k Hk.
  assert (Hk2 : k < length P - 1) by lia.
  rewrite C by lia. destruct (Nat.leb_spec 0 k), (Nat.ltb_spec k (0 + (length P - 1))); cbn [andb]; try lia.
  assert (En : nth k (firstn (length P - 1) s) zero = nth k s zero).
  { rewrite <- (firstn_skipn (length P - 1) s) at 2. rewrite app_nth1; [reflexivity|]. rewrite firstn_length. lia. }
  rewrite En, Cs by lia. rewrite mul_comm. f_equal.
  rewrite (nth_indep _ zero (ofnat (length P - 1 - 0))) by (rewrite map_length, seq_length; lia).
  rewrite (map_nth (fun i => ofnat (length P - 1 - i)) (seq 0 (length P)) 0 k), seq_nth by lia. reflexivity.
Qed.
Lemma polyder_loop_fixed m : forall P, m < length P -> polyder_fixed zero mul ofnat m P = polyder_loop mul ofnat m P.
Proof.
  induction m as [|m IH]; intros P H; [reflexivity|]. cbn [polyder_fixed polyder_loop].
  destruct (Nat.leb_spec (length P) (S m)); [lia|].
  destruct (@polyder_once_fixed_spec P) as (Q & E1 & E2 & L); [destruct P; simpl in *; [lia|discriminate]|].
  rewrite E1, E2. cbn [bind]. apply IH. lia.
Qed.
Lemma polyder_loop_ok m : forall P, m <= length P -> exists Q, polyder_loop mul ofnat m P = Ok Q /\ length Q = length P - m.
Proof.
  induction m as [|m IH]; intros P H; cbn [polyder_loop]; [exists P; split; [reflexivity|lia]|].
  destruct (@polyder_once_fixed_spec P) as (Q & _ & E2 & L); [destruct P; simpl in *; [lia|discriminate]|].
  rewrite E2. cbn [bind]. destruct (IH Q) as (Q' & E & L'); [lia|]. exists Q'. split; [exact E|lia].
Qed.
Lemma polyder_fixed_spec m P : polyder_fixed zero mul ofnat m P = polyder mul ofnat P (Z.of_nat m) /\
  exists Q, polyder mul ofnat P (Z.of_nat m) = Ok Q /\ length Q = length P - m.
Proof.
  unfold polyder, require. destruct (Z.leb_spec 0 (Z.of_nat m)); [|lia]. destruct (Z.eqb_spec (Z.of_nat m) 0) as [E|E].
  - replace m with 0 by lia. split; [reflexivity|]. exists P. split; [reflexivity|lia].
  - destruct (Z.leb_spec (Z.of_nat (length P)) (Z.of_nat m)).
    + destruct m as [|m]; [lia|]. cbn [polyder_fixed]. destruct (Nat.leb_spec (length P) (S m)); [|lia]. split; [reflexivity|].
      exists []. split; [reflexivity|]. simpl. lia.
    + rewrite Nat2Z.id. split; [apply polyder_loop_fixed; lia|]. destruct (@polyder_loop_ok m P) as (Q & E1 & L); [lia|]. eauto.
Qed.

(** polyint *)
Lemma int_fill_spec P : forall cnt i res, i + cnt + 1 <= length res -> i + cnt <= length P ->
  exists r, int_fill div ofnat P i cnt res = Ok r /\ length r = length res /\
  forall k, k < length res -> nth k r zero = if (S i <=? k) && (k <? S i + cnt) then div (nth (k - 1) P zero) (ofnat k) else nth k res zero.
Proof.
  induction cnt as [|c IH]; intros i res H1 H2; cbn [int_fill].
  - exists res. split; [reflexivity|]. split; [reflexivity|]. intros k _. destruct (Nat.leb_spec (S i) k), (Nat.ltb_spec k (S i + 0)); cbn [andb]; auto; lia.
  - rewrite (at_ub_nth' P zero) by lia. cbn [bind]. rewrite set_ub_upd by lia. cbn [bind].
    destruct (IH (S i) (upd res (i + 1) (div (nth i P zero) (ofnat (i + 1))))) as (r & E & L & C); [rewrite ?upd_length; lia..|].
    rewrite upd_length in L. exists r. split; [exact E|]. split; [exact L|]. intros k Hk. rewrite C by (rewrite upd_length; lia). rewrite nth_upd by lia.
    destruct (Nat.leb_spec (S (S i)) k), (Nat.ltb_spec k (S (S i) + c)), (Nat.leb_spec (S i) k), (Nat.ltb_spec k (S i + S c)), (Nat.eqb_spec k (i + 1)); cbn [andb]; try lia; auto.
    subst k. now replace (i + 1 - 1) with i by lia.
Qed.
Lemma fill_down cnt : forall P : list T, cnt < length P ->
  exists r, polyint_fill div ofnat cnt P = Ok r /\ length r = length P /\
  forall k, nth k r zero = if (1 <=? k) && (k <=? cnt) then div (nth (k - 1) P zero) (ofnat k) else nth k P zero.
Proof.
  induction cnt as [|i IH]; intros P H; cbn [polyint_fill].
  - exists P. split; [reflexivity|]. split; [reflexivity|]. intros k. destruct (Nat.leb_spec 1 k), (Nat.leb_spec k 0); cbn [andb]; auto; lia.
  - rewrite (at_ub_nth' P zero) by lia. cbn [bind]. rewrite set_ub_upd by lia. cbn [bind].
    destruct (IH (upd P (i + 1) (div (nth i P zero) (ofnat (i + 1))))) as (r & E & L & C); [rewrite upd_length; lia|].
    rewrite upd_length in L. exists r. split; [exact E|]. split; [exact L|]. intros k. rewrite C, !nth_upd by lia.
    destruct (Nat.leb_spec 1 k), (Nat.leb_spec k i), (Nat.leb_spec k (S i)), (Nat.eqb_spec k (i + 1)), (Nat.eqb_spec (k - 1) (i + 1)); cbn [andb]; try lia; auto.
    subst k. now replace (i + 1 - 1) with i by lia.
Qed.
Lemma polyint_once_fixed_spec P : exists Q, polyint_once_fixed zero div ofnat P = Ok Q /\ polyint_once zero div ofnat P = Ok Q /\ length Q = S (length P).
Proof.
  unfold polyint_once_fixed, polyint_once, zero_array.
  destruct (@int_fill_spec P (length P) 0 (repeat zero (length P + 1))) as (r & E & L & C); [rewrite repeat_length; lia|lia|].
  rewrite repeat_length in L, C. exists r. split; [exact E|]. split; [|lia].
  destruct (@fill_down (length P) (P ++ [zero])) as (s & Es & Ls & Cs); [rewrite app_length; simpl; lia|].
  rewrite app_length in Ls. simpl length in Ls. rewrite Es. cbn [bind]. rewrite set_ub_upd by lia. apply (f_equal Ok).
  apply (list_nth_ext zero); rewrite upd_length; [lia|]. intros k Hk. rewrite nth_upd, Cs, C by lia.
  destruct (Nat.eqb_spec k 0) as [-> |].
  - cbn [Nat.leb andb]. rewrite nth_repeat. reflexivity.
  - destruct (Nat.leb_spec 1 k), (Nat.leb_spec k (length P)), (Nat.ltb_spec k (1 + length P)); cbn [andb]; try lia.
    rewrite app_nth1 by lia. reflexivity.
Qed.
Lemma polyint_fixed_loop m : forall P, P <> [] -> polyint_fixed zero div ofnat m P = polyint_loop zero div ofnat m P /\
  exists Q, polyint_loop zero div ofnat m P = Ok Q /\ length Q = length P + m.
Proof.
  induction m as [|m IH]; intros P H; cbn [polyint_fixed polyint_loop]; (destruct (Nat.eqb_spec (length P) 0) as [C|C]; [destruct P; simpl in *; [congruence|lia]|]).
  - split; [reflexivity|]. exists P. split; [reflexivity|lia].
  - destruct (polyint_once_fixed_spec P) as (Q & E1 & E2 & L). rewrite E1, E2. cbn [bind].
    destruct (IH Q) as (E & Q' & E' & L'); [destruct Q; simpl in *; [lia|discriminate]|]. split; [exact E|]. exists Q'. split; [exact E'|lia].
Qed.
Lemma polyint_fixed_spec m P : P <> [] -> polyint_fixed zero div ofnat m P = polyint zero div ofnat P (Z.of_nat m) /\
  exists Q, polyint zero div ofnat P (Z.of_nat m) = Ok Q /\ length Q = length P + m.
Proof.
  intros H. destruct (@polyint_fixed_loop m P H) as (E & Q & E' & L). unfold polyint, require.
  destruct (Nat.eqb_spec (length P) 0) as [C|C]; [destruct P; simpl in *; [congruence|lia]|]. cbn [negb].
  destruct (Z.leb_spec 0 (Z.of_nat m)); [|lia]. destruct (Z.eqb_spec (Z.of_nat m) 0) as [E0|E0].
  - replace m with 0 in * by lia. cbn [polyint_loop] in *. split; [exact E|]. exists P. split; [reflexivity|lia].
  - rewrite Nat2Z.id. eauto.
Qed.

(** diff *)
Lemma adj_from_length : forall (a : list T) p, length (adjacent_difference_from sub p a) = length a.
Proof. induction a as [|x a IH]; intros p; simpl; auto. Qed.
Lemma diff_once_fixed_spec (a : list T) : diff_once_fixed zero sub a = Ok (diff_once_array sub a) /\ length (diff_once_array sub a) = length a - 1.
Proof.
  unfold diff_once_fixed, diff_once_array, zero_array. destruct a as [|x0 [|x1 r]]; [split; reflexivity..|]. cbn [length Nat.leb].
  rewrite copy_all by (simpl; rewrite adj_from_length; lia). cbn [bind at_ub nth_error adjacent_difference skipn].
  unfold set_ub, adjacent_difference. cbn [length Nat.ltb Nat.leb upd]. rewrite adj_from_length. split; [reflexivity|lia].
Qed.
Lemma diff_fixed_spec n : forall a : list T, diff_fixed zero sub n a = Ok (diff_array sub n a) /\ length (diff_array sub n a) = length a - n.
Proof.
  induction n as [|n IH]; intros a; cbn [diff_fixed diff_array]; [split; [reflexivity|lia]|].
  destruct (diff_once_fixed_spec a) as [E L]. rewrite E. cbn [bind]. destruct (IH (diff_once_array sub a)) as [E2 L2]. split; [exact E2|lia].
Qed.
End Facts.

Lemma concatenate_both (A B C : Type) (zero : C) (c1 : A -> C) (c2 : B -> C) a1 a2 :
  concatenate_fixed zero c1 c2 a1 a2 = Ok (map c1 a1 ++ map c2 a2) /\ concatenate_dyn zero c1 c2 a1 a2 = Ok (map c1 a1 ++ map c2 a2).
Proof.
  unfold concatenate_fixed, concatenate_dyn. split.
  - rewrite copy_at_spec by (rewrite map_length, repeat_length; lia). cbn [bind]. simpl firstn. cbn [app].
    rewrite copy_at_spec by (rewrite app_length, skipn_length, !map_length, repeat_length; lia). apply (f_equal Ok).
    rewrite firstn_app, map_length, Nat.sub_diag, firstn_all2 by (rewrite map_length; lia). simpl firstn. rewrite app_nil_r. f_equal.
    rewrite skipn_all2 by (rewrite app_length, skipn_length, !map_length, repeat_length; lia). now rewrite app_nil_r.
  - rewrite copy_at_spec by (rewrite app_length, !map_length, repeat_length; lia). apply (f_equal Ok).
    rewrite firstn_app, map_length, Nat.sub_diag, firstn_all2 by (rewrite map_length; lia). simpl firstn. rewrite app_nil_r. f_equal.
    rewrite skipn_all2 by (rewrite app_length, !map_length, repeat_length; lia). now rewrite app_nil_r.
Qed.

Lemma convolve_fixed_spec (T : Type) (zero : T) add mul a v : a <> [] \/ v <> [] ->
  convolve_fixed zero add mul a v = convolve zero add mul a v.
Proof.
  intros H. unfold convolve_fixed, convolve, direct_convolve. destruct (Nat.eqb_spec (length a + length v) 0); [|reflexivity].
  destruct a, v; simpl in *; try lia. destruct H; congruence.
Qed.
Lemma full_fixed_spec (T : Type) (zero x : T) n : full_fixed zero n x = repeat x n.
Proof. unfold full_fixed, zero_array. rewrite transform1_map. induction n; simpl; congruence. Qed.
