(** With as many threads as segments, the additions can take place in any order (SpectralConc.v). *)
From Coq Require Import ZArith Permutation.
From Verif Require Import Base Functional FunctionalProofs Spec NumericProofs SpectralConc SpectralConcFacts.
Open Scope nat_scope.

Section All.
Context {T : Type}.
Variables (zero : T) (add : T -> T -> T).
Hypothesis add_comm : forall x y, add x y = add y x.
Variables (n nfft : nat) (psd : nat -> outcome (list T)).
Hypothesis psd_ok : forall i, i < n -> exists v, psd i = Ok v /\ length v = nfft.
Hypothesis n_pos : 1 <= n.
Notation reach := (reachable zero add n n nfft psd).
Notation st m x p r cl := {| mn := m; next := x; pool := p; res := r; lock := false; calls := cl; failed := false |}.

Lemma nth_error_mapseq {A} (f : nat -> A) m i : i < m -> nth_error (map f (seq 0 m)) i = Some (f i).
Proof. intros H. rewrite (map_nth_error f i (seq 0 m) (d := i)); [reflexivity|]. rewrite (nth_error_nth' _ 0) by (now rewrite seq_length). now rewrite seq_nth. Qed.
Lemma upd_app_r {A} (a b : list A) x y : upd (a ++ y :: b) (length a) x = a ++ x :: b.
Proof. induction a; cbn; [reflexivity|]. now rewrite IHa. Qed.
Lemma upd_mapseq {A} (f : nat -> A) x : forall m s i, upd (map f (seq s m)) i x = map (fun k => if k =? s + i then x else f k) (seq s m).
Proof.
  induction m as [|m IH]; intros s i; [reflexivity|]. cbn [seq map]. destruct i as [|i]; cbn [upd].
  - rewrite Nat.add_0_r, Nat.eqb_refl. f_equal. apply map_ext_in. intros k Hk. apply in_seq in Hk. destruct (Nat.eqb_spec k s); [lia|reflexivity].
  - destruct (Nat.eqb_spec s (s + S i)); [lia|]. f_equal. rewrite IH. now replace (S s + i) with (s + S i) by lia.
Qed.
(** start all threads *)
Lemma spawn_all j : j <= n -> j < n -> reach (st (MSpawn j) j (map (fun i => Some (WStart i)) (seq 0 j) ++ repeat None (n - j)) (repeat zero nfft) []).
Proof.
  induction j as [|j IH]; intros H1 H2.
  - cbn [seq map app]. rewrite Nat.sub_0_r. eapply r_step; [apply r_init|]. apply (@s_while _ add n psd (init zero n nfft)); [reflexivity|reflexivity|exact H2].
  - eapply r_step; [apply IH; lia|]. set (s := st (MSpawn j) _ _ _ _).
    assert (E : pool s = map (fun i => Some (WStart i)) (seq 0 j) ++ None :: repeat None (n - S j)) by (unfold s; cbn [pool]; replace (n - j) with (S (n - S j)) by lia; reflexivity).
    assert (L : length (map (fun i : nat => Some (@WStart T i)) (seq 0 j)) = j) by (now rewrite map_length, seq_length).
    assert (EN : nth_error (pool s) j = Some None) by (rewrite E, nth_error_app2, L, Nat.sub_diag by lia; reflexivity).
    pose proof (@s_spawn _ add n psd s j eq_refl eq_refl EN) as St. cbn [next res lock calls s] in St. destruct (Nat.leb_spec n (S j)); [lia|].
    pose proof (upd_app_r (map (fun i : nat => Some (@WStart T i)) (seq 0 j)) (repeat None (n - S j)) (Some (WStart j)) None) as Q. rewrite L, <- E in Q. cbn [s pool] in Q, St. rewrite Q in St.
    revert St. rewrite seq_S, map_app, <- app_assoc. cbn [map app Nat.add]. auto.
Qed.
Lemma spawned : reach (st (MJoin 0) n (map (fun i => Some (WStart i)) (seq 0 n)) (repeat zero nfft) []).
Proof.
  eapply r_step; [apply (spawn_all (n - 1)); lia|]. set (s := st (MSpawn (n - 1)) _ _ _ _).
  assert (E : pool s = map (fun i => Some (WStart i)) (seq 0 (n - 1)) ++ [None]) by (unfold s; cbn [pool]; replace (n - (n - 1)) with 1 by lia; reflexivity).
  assert (L : length (map (fun i : nat => Some (@WStart T i)) (seq 0 (n - 1))) = n - 1) by (now rewrite map_length, seq_length).
  assert (EN : nth_error (pool s) (n - 1) = Some None) by (rewrite E, nth_error_app2, L, Nat.sub_diag by lia; reflexivity).
  pose proof (@s_spawn _ add n psd s (n - 1) eq_refl eq_refl EN) as St. cbn [next res lock calls s] in St. destruct (Nat.leb_spec n (S (n - 1))); [|lia].
  pose proof (upd_app_r (map (fun i : nat => Some (@WStart T i)) (seq 0 (n - 1))) [] (Some (WStart (n - 1))) None) as Q. rewrite L, <- E in Q. cbn [s pool] in Q, St. rewrite Q in St.
  replace (S (n - 1)) with n in St by lia. revert St. replace (seq 0 n) with (seq 0 (S (n - 1))) by (f_equal; lia). rewrite seq_S, map_app. cbn [map Nat.add]. auto.
Qed.
(** run one thread from its start to its end *)
Lemma run_worker m x p r cl j i v r' : reach (st m x p r cl) -> nth_error p j = Some (Some (WStart i)) -> psd i = Ok v -> map2 add r v = Ok r' ->
  reach (st m x (upd p j (Some (WDone i))) r' (i :: cl)).
Proof.
  intros R E P M. assert (Lj : j < length p) by (apply nth_error_Some; congruence).
  assert (G : forall (q : list (option (@worker T))) w, j < length q -> nth_error (upd q j w) j = Some w).
  { clear. induction j as [|k IH]; intros [|a q] w H; cbn in *; try lia; [reflexivity|]. apply IH. lia. }
  assert (U : forall (q : list (option (@worker T))) w w', upd (upd q j w) j w' = upd q j w').
  { clear. induction j as [|k IH]; intros [|a q] w w'; cbn; try reflexivity. now rewrite IH. }
  assert (Ln : forall (q : list (option (@worker T))) w, length (upd q j w) = length q) by (intros; apply upd_len).
  pose proof (r_step R (@w_compute _ add n psd (st m x p r cl) j i v eq_refl E P)) as R1. cbn [mn next pool res lock calls failed] in R1.
  pose proof R1 as R2. eapply r_step in R2; [|eapply w_acquire; [reflexivity|apply (G _ _ Lj)|reflexivity]]. cbn [mn next pool res lock calls failed] in R2. rewrite U in R2.
  pose proof R2 as R3. eapply r_step in R3; [|eapply w_move; [reflexivity|apply (G _ _ Lj)]]. cbn [mn next pool res lock calls failed] in R3. rewrite U in R3.
  pose proof R3 as R4. eapply r_step in R4; [|eapply w_add; [reflexivity|apply (G _ _ Lj)|exact M]]. cbn [mn next pool res lock calls failed] in R4. rewrite U in R4.
  pose proof R4 as R5. eapply r_step in R5; [|eapply w_release; [reflexivity|apply (G _ _ Lj)]]. cbn [mn next pool res lock calls failed] in R5. rewrite U in R5. exact R5.
Qed.
Definition mem (i : nat) (l : list nat) : bool := existsb (Nat.eqb i) l.
Definition slot (l : list nat) (i : nat) : option (@worker T) := Some (if mem i l then WDone i else WStart i).
Lemma run_some l : NoDup l -> (forall i, In i l -> i < n) -> exists cl, reach (st (MJoin 0) n (map (slot l) (seq 0 n)) (vsum zero add nfft psd l) cl).
Proof.
  induction l as [|i l IH]; intros N H.
  - exists []. rewrite vsum_nil. exact spawned.
  - inversion N as [|? ? Ni Nl]; subst. destruct IH as (cl & R); [exact Nl|intros; apply H; now right|]. exists (i :: cl).
    assert (Hi : i < n) by (apply H; now left). destruct (psd_ok i Hi) as (v & P & L).
    assert (E : nth_error (map (slot l) (seq 0 n)) i = Some (Some (WStart i))).
    { rewrite nth_error_mapseq by exact Hi. unfold slot. replace (mem i l) with false; [reflexivity|]. symmetry. unfold mem. apply Bool.not_true_iff_false. intros C.
      apply existsb_exists in C. destruct C as (k & Hk & Ek). apply Nat.eqb_eq in Ek. now subst k. }
    pose proof (run_worker _ _ _ _ _ i i v _ R E P (vsum_add zero add add_comm nfft psd i l v P L)) as Q. rewrite upd_mapseq in Q. cbn [Nat.add] in Q.
    replace (map (slot (i :: l)) (seq 0 n)) with (map (fun k => if k =? i then Some (WDone i) else slot l k) (seq 0 n)); [exact Q|].
    apply map_ext. intros k. unfold slot, mem. cbn [existsb]. destruct (Nat.eqb_spec k i); [now subst|reflexivity].
Qed.
Lemma join_all r cl : reach (st (MJoin 0) n (map (fun i => Some (WDone i)) (seq 0 n)) r cl) -> forall j, j <= n ->
  reach (st (MJoin j) n (repeat None j ++ map (fun i => Some (WDone i)) (seq j (n - j))) r cl).
Proof.
  intros R. induction j as [|j IH]; intros H; [cbn [repeat app]; now rewrite Nat.sub_0_r|]. specialize (IH ltac:(lia)).
  replace (n - j) with (S (n - S j)) in IH by lia. cbn [seq map] in IH.
  assert (E : nth_error (repeat None j ++ Some (WDone j) :: map (fun i => Some (WDone i)) (seq (S j) (n - S j))) j = Some (Some (@WDone T j))).
  { rewrite nth_error_app2 by (rewrite repeat_length; lia). rewrite repeat_length, Nat.sub_diag. reflexivity. }
  pose proof IH as Q. eapply r_step in Q; [|eapply s_join; [reflexivity|reflexivity|exact E]]. cbn [mn next pool res lock calls failed] in Q.
  pose proof (upd_app_r (repeat None j) (map (fun i => Some (@WDone T i)) (seq (S j) (n - S j))) None (Some (WDone j))) as Up. rewrite repeat_length in Up. rewrite Up in Q.
  replace (repeat None (S j)) with (repeat (@None (@worker T)) j ++ [None]) by (clear; induction j; cbn; [reflexivity|]; now rewrite IHj).
  rewrite <- app_assoc. exact Q.
Qed.
Lemma every_order order : Permutation order (seq 0 n) -> exists s, reach s /\ mn s = MExit /\ failed s = false /\ res s = vsum zero add nfft psd order.
Proof.
  intros P. destruct (run_some order) as (cl & R).
  - apply (Permutation_NoDup (Permutation_sym P)). apply seq_NoDup.
  - intros i Hi. apply (Permutation_in _ P) in Hi. apply in_seq in Hi. lia.
  - replace (map (slot order) (seq 0 n)) with (map (fun i => Some (@WDone T i)) (seq 0 n)) in R.
    + pose proof (join_all _ _ R n (le_n n)) as Q. rewrite Nat.sub_diag in Q. cbn [seq map] in Q. rewrite app_nil_r in Q.
      pose proof Q as Q1. eapply r_step in Q1; [|eapply s_joined; [reflexivity|reflexivity|cbn [pool]; rewrite repeat_length; apply le_n]].
      pose proof Q1 as Q2. eapply r_step in Q2; [|eapply s_exit; [reflexivity|reflexivity|exact (le_n n)]]. eexists. split; [exact Q2|]. split; [reflexivity|]. split; reflexivity.
    + apply map_ext_in. intros i Hi. unfold slot. replace (mem i order) with true; [reflexivity|]. symmetry. unfold mem. apply existsb_exists. exists i. split; [|apply Nat.eqb_refl].
      apply (Permutation_in _ (Permutation_sym P)). exact Hi.
Qed.
End All.
