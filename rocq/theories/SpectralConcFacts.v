(** Proofs about SpectralConc.v: the invariant of the thread pool. *)
From Coq Require Import ZArith Permutation.
From Verif Require Import Base Functional Spec NumericProofs SpectralConc.
Open Scope nat_scope.

Lemma upd_split {A} (l : list A) : forall j o, nth_error l j = Some o ->
  exists a b, l = a ++ o :: b /\ length a = j /\ forall x, upd l j x = a ++ x :: b.
Proof.
  induction l as [|y l IH]; intros [|j] o H; cbn in H; try discriminate.
  - injection H as ->. exists [], l. auto.
  - destruct (IH j o H) as (a & b & -> & L & U). exists (y :: a), b. split; [reflexivity|]. split; [cbn; lia|]. intros x. cbn. now rewrite U.
Qed.

Section P.
Context {T : Type}.
Variables (zero : T) (add : T -> T -> T).
Hypothesis add_assoc : forall x y z, add x (add y z) = add (add x y) z.
Hypothesis add_comm : forall x y, add x y = add y x.
Hypothesis add_0_l : forall x, add zero x = x.
Variables (nthreads nseg nfft : nat).
Variable psd : nat -> outcome (list T).
Hypothesis psd_ok : forall i, i < nseg -> exists v, psd i = Ok v /\ length v = nfft.
Notation worker := (@worker T).
Notation state := (@state T).

Definition seg (i : nat) : list T := match psd i with Ok v => v | _ => [] end.
(** the sum of the spectra of a list of segments *)
Definition vsum (l : list nat) : list T := map (fun k => bigop add zero (map (fun i => nth k (seg i) zero) l)) (seq 0 nfft).
Lemma vsum_length l : length (vsum l) = nfft.
Proof. unfold vsum. now rewrite map_length, seq_length. Qed.
Lemma vsum_perm a b : Permutation a b -> vsum a = vsum b.
Proof. intros P. unfold vsum. apply map_ext. intros k. apply bigop_perm; try assumption. now apply Permutation_map. Qed.
Lemma vsum_nil : vsum [] = repeat zero nfft.
Proof.
  unfold vsum. cbn. generalize 0. clear. induction nfft as [|n IH]; intros s; [reflexivity|]. cbn. now rewrite IH.
Qed.
Lemma transform2_map {A B C} (f : A -> B -> C) a : forall b, length a = length b -> transform2 f a b = Ok (map (fun p => f (fst p) (snd p)) (combine a b)).
Proof.
  induction a as [|x a IH]; intros [|y b] L; try discriminate; [reflexivity|]. cbn in L. cbn [transform2]. rewrite IH by lia. reflexivity.
Qed.
Lemma combine_map_seq {A B} (f : nat -> A) (b : list B) (d : B) : forall s, map (fun p => p) (combine (map f (seq s (length b))) b) =
  map (fun k => (f k, nth (k - s) b d)) (seq s (length b)).
Proof.
  induction b as [|y b IH]; intros s; [reflexivity|]. cbn [length seq map combine]. f_equal; [now rewrite Nat.sub_diag|].
  rewrite IH. apply map_ext_in. intros k Hk. apply in_seq in Hk. replace (k - s) with (S (k - S s)) by lia. reflexivity.
Qed.
Lemma vsum_add i l v : psd i = Ok v -> length v = nfft -> map2 add (vsum l) v = Ok (vsum (i :: l)).
Proof.
  intros P L. unfold map2, map2_fresh. rewrite vsum_length, L, Nat.eqb_refl. cbn [require]. rewrite transform2_map by (rewrite vsum_length; lia).
  f_equal. unfold vsum. rewrite <- L. rewrite <- (map_id (combine _ v)), (combine_map_seq _ v zero), map_map. apply map_ext. intros k. cbn [fst snd map bigop].
  unfold seg at 2. rewrite P, Nat.sub_0_r. apply add_comm.
Qed.

(** summaries of the pool *)
Definition over {A} (f : worker -> list A) (p : list (option worker)) : list A := flat_map (fun o => match o with Some w => f w | None => [] end) p.
Lemma over_app {A} (f : worker -> list A) a b : over f (a ++ b) = over f a ++ over f b.
Proof. apply flat_map_app. Qed.
Definition pending (w : worker) : list nat := match w with WStart i | WReady i _ | WLocked i _ | WMoved i _ _ => [i] | _ => [] end.
Definition computed (w : worker) : list nat := match w with WReady i _ | WLocked i _ | WMoved i _ _ => [i] | _ => [] end.
Definition crit (w : worker) : list unit := match w with WLocked _ _ | WMoved _ _ _ | WStored _ => [tt] | _ => [] end.
Definition held (w : worker) : list (list T) := match w with WMoved _ _ t => [t] | _ => [] end.
Definition wok (w : worker) : Prop :=
  match w with WStart i => i < nseg | WReady i v | WLocked i v | WMoved i v _ => i < nseg /\ psd i = Ok v | _ => True end.
Definition rank (w : worker) : nat := match w with WStart _ => 6 | WReady _ _ => 5 | WLocked _ _ => 4 | WMoved _ _ _ => 3 | WStored _ => 2 | WDone _ => 1 end.

Definition main_ok (s : state) : Prop :=
  match mn s with
  | MWhile => (forall j o, nth_error (pool s) j = Some o -> o = None)
  | MSpawn j => next s < nseg /\ j <= nthreads /\ (forall k o, j <= k -> nth_error (pool s) k = Some o -> o = None)
  | MJoin j => j <= nthreads /\ (forall k o, k < j -> nth_error (pool s) k = Some o -> o = None)
  | MExit => next s = nseg /\ (forall j o, nth_error (pool s) j = Some o -> o = None)
  end.
Record inv (s : state) : Prop := {
  i_failed : failed s = false;
  i_len : length (pool s) = nthreads;
  i_next : next s <= nseg;
  i_main : main_ok s;
  i_wok : forall j w, nth_error (pool s) j = Some (Some w) -> wok w;
  i_lock : length (over crit (pool s)) = if lock s then 1 else 0;
  i_acc : exists added, Permutation (added ++ over pending (pool s)) (seq 0 (next s)) /\
            Permutation (calls s) (added ++ over computed (pool s)) /\
            ((over held (pool s) = [] /\ res s = vsum added) \/ (over held (pool s) = [vsum added] /\ res s = [])) }.

Lemma over_repeat {A} (f : worker -> list A) n : over f (repeat None n) = [].
Proof. induction n; [reflexivity|]. cbn. assumption. Qed.
Lemma nth_error_repeat {A} (x : A) n j o : nth_error (repeat x n) j = Some o -> o = x.
Proof. intros H. apply nth_error_In in H. now apply repeat_spec in H. Qed.
Lemma inv_init : inv (init zero nthreads nfft).
Proof.
  constructor; cbn [init mn next pool res lock calls failed]; try lia; try reflexivity.
  - apply repeat_length.
  - intros j o H. now apply nth_error_repeat in H.
  - intros j w H. apply nth_error_repeat in H. discriminate.
  - now rewrite over_repeat.
  - exists []. rewrite !over_repeat. cbn [app seq]. split; [constructor|]. split; [constructor|]. left. split; [reflexivity|]. now rewrite vsum_nil.
Qed.
Lemma nth_error_upd_cases {A} (l : list A) j x k o : nth_error (upd l j x) k = Some o -> (k = j /\ o = x) \/ (k <> j /\ nth_error l k = Some o).
Proof.
  revert j k. induction l as [|y l IH]; intros [|j] [|k] H; cbn in *; try discriminate; auto.
  - injection H as <-. auto.
  - destruct (IH j k H) as [[-> ->]|[N E]]; auto.
Qed.
Lemma upd_len {A} (l : list A) j x : length (upd l j x) = length l.
Proof. revert j. induction l as [|y l IH]; intros [|j]; cbn; auto. Qed.
Lemma held_crit p : length (over held p) <= length (over crit p).
Proof. induction p as [|[w|] p IH]; cbn; [lia| |exact IH]. rewrite !app_length. destruct w; cbn; unfold over in IH; lia. Qed.
Lemma over_none {A} (f : worker -> list A) p : (forall j o, nth_error p j = Some o -> o = None) -> over f p = [].
Proof.
  induction p as [|o p IH]; intros H; [reflexivity|]. pose proof (H 0 o eq_refl) as E. subst o. cbn. apply IH. intros j o E. exact (H (S j) o E).
Qed.
(** a worker changes its state; the main thread's conditions only speak of non-joinable slots *)
Lemma main_ok_worker (s s' : state) j w w' : nth_error (pool s) j = Some (Some w) -> pool s' = upd (pool s) j (Some w') -> mn s' = mn s -> next s' = next s ->
  main_ok s -> main_ok s'.
Proof.
  intros E P M N. unfold main_ok. rewrite M, N, P.
  assert (G : forall (Q : nat -> Prop), (forall k o, Q k -> nth_error (pool s) k = Some o -> o = None) ->
    forall k o, Q k -> nth_error (upd (pool s) j (Some w')) k = Some o -> o = None).
  { intros Q H k o Hq Hk. apply nth_error_upd_cases in Hk. destruct Hk as [[-> ->]|[_ Hk]]; [specialize (H j _ Hq E); discriminate|eauto]. }
  destruct (mn s) as [|i|i|].
  - intros H k o. apply (G (fun _ => True)); auto. intros k' o' _. apply H.
  - intros (H1 & H2 & H). split; [exact H1|]. split; [exact H2|]. apply (G (fun k => i <= k)). exact H.
  - intros (H2 & H). split; [exact H2|]. apply (G (fun k => k < i)). exact H.
  - intros (H1 & H). split; [exact H1|]. intros k o. apply (G (fun _ => True)); auto. intros k' o' _. apply H.
Qed.
Lemma wok_upd p j o : (forall k w, nth_error p k = Some (Some w) -> wok w) -> (forall w, o = Some w -> wok w) ->
  forall k w, nth_error (upd p j o) k = Some (Some w) -> wok w.
Proof. intros H Ho k w E. apply nth_error_upd_cases in E. destruct E as [[-> <-]|[_ E]]; eauto. Qed.

Ltac split_pool H := let a := fresh "a" in let b := fresh "b" in let EP := fresh "EP" in let L := fresh "La" in let U := fresh "U" in
  destruct (upd_split _ _ _ H) as (a & b & EP & L & U).
Lemma inv_step s s' : inv s -> step add nseg psd s s' -> inv s'.
Proof.
  intros I St. pose proof (i_len s I) as IL. pose proof (i_next s I) as IN. pose proof (i_main s I) as IM. pose proof (i_wok s I) as IW.
  pose proof (i_lock s I) as IK. destruct (i_acc s I) as (ad & A1 & A2 & A3). unfold main_ok in IM.
  destruct St as [F M N|F M N|j F M E|j w F M E|j F M E|j i F M E|j F M E|j F M E|j i v F E P|j i F E P|j i v F E K|j i v F E|j i v tmp r F E P|j i v tmp F E P|j i F E];
  try rewrite M in IM.
  - constructor; cbn [set_main mn next pool res lock calls failed]; auto; [|exists ad; auto].
    unfold main_ok. cbn. split; [exact N|]. split; [lia|]. intros k o _. apply IM.
  - constructor; cbn [set_main mn next pool res lock calls failed]; auto; [|exists ad; auto].
    unfold main_ok. cbn. split; [lia|exact IM].
  - destruct IM as (Hn & Hj & IM). split_pool E. constructor; cbn [mn next pool res lock calls failed]; auto.
    + now rewrite upd_len.
    + unfold main_ok. cbn [mn next pool]. destruct (Nat.leb_spec nseg (S (next s))); [split; [lia|intros; lia]|].
      split; [lia|]. assert (j < nthreads) by (rewrite <- IL; apply nth_error_Some; congruence). split; [lia|].
      intros k o Hk Ho. apply nth_error_upd_cases in Ho. destruct Ho as [[-> _]|[_ Ho]]; [lia|]. apply (IM k o); [lia|exact Ho].
    + apply wok_upd; [exact IW|]. intros w [= <-]. exact Hn.
    + rewrite U. rewrite EP in IK. rewrite over_app in *. exact IK.
    + exists ad. rewrite !U. rewrite !EP, !over_app in *. cbn [over flat_map app pending computed held] in *.
      split; [|split; [exact A2|exact A3]]. rewrite seq_S. cbn [Nat.add].
      transitivity ((ad ++ over pending a ++ over pending b) ++ [next s]); [|now apply Permutation_app_tail].
      rewrite <- !app_assoc. apply Permutation_app_head. apply Permutation_app_head. apply Permutation_cons_append.
  - exfalso. destruct IM as (Hn & Hj & IM). specialize (IM j _ (le_n j) E). discriminate.
  - constructor; cbn [set_main mn next pool res lock calls failed]; auto; [|exists ad; auto].
    unfold main_ok. cbn. split; [lia|intros; lia].
  - destruct IM as (Hj & IM). split_pool E. constructor; cbn [mn next pool res lock calls failed]; auto.
    + now rewrite upd_len.
    + unfold main_ok. cbn [mn next pool]. assert (j < nthreads) by (rewrite <- IL; apply nth_error_Some; congruence). split; [lia|].
      intros k o Hk Ho. apply nth_error_upd_cases in Ho. destruct Ho as [[_ ->]|[Hk' Ho]]; [reflexivity|]. apply (IM k o); [lia|exact Ho].
    + apply wok_upd; [exact IW|]. discriminate.
    + rewrite U. rewrite EP in IK. rewrite over_app in *. exact IK.
    + exists ad. rewrite !U. rewrite !EP, !over_app in *. cbn [over flat_map app pending computed held] in *. auto.
  - destruct IM as (Hj & IM). constructor; cbn [set_main mn next pool res lock calls failed]; auto; [|exists ad; auto].
    unfold main_ok. cbn. assert (j < nthreads) by (rewrite <- IL; apply nth_error_Some; congruence). split; [lia|].
    intros k o Hk Ho. destruct (Nat.eq_dec k j) as [->|]; [congruence|]. apply (IM k o); [lia|exact Ho].
  - destruct IM as (Hj & IM). constructor; cbn [set_main mn next pool res lock calls failed]; auto; [|exists ad; auto].
    unfold main_ok. cbn. intros k o Ho. apply (IM k o); [|exact Ho]. assert (k < length (pool s)) by (apply nth_error_Some; congruence). lia.
  - split_pool E. pose proof (IW j _ E) as W. cbn in W. constructor; cbn [mn next pool res lock calls failed]; auto.
    + now rewrite upd_len.
    + eapply main_ok_worker; [exact E|reflexivity|reflexivity|reflexivity|exact (i_main s I)].
    + apply wok_upd; [exact IW|]. intros w [= <-]. cbn. auto.
    + rewrite U. rewrite EP in IK. rewrite over_app in *. exact IK.
    + exists ad. rewrite !U. rewrite !EP, !over_app in *. cbn [over flat_map app pending computed held] in *.
      split; [exact A1|]. split; [|exact A3]. rewrite A2. rewrite !app_assoc. apply Permutation_middle.
  - exfalso. pose proof (IW j _ E) as W. cbn in W. destruct (psd_ok i W) as (v & Pv & _). exact (P v Pv).
  - split_pool E. pose proof (IW j _ E) as W. cbn in W. constructor; cbn [mn next pool res lock calls failed]; auto.
    + now rewrite upd_len.
    + eapply main_ok_worker; [exact E|reflexivity|reflexivity|reflexivity|exact (i_main s I)].
    + apply wok_upd; [exact IW|]. intros w [= <-]. exact W.
    + rewrite U. rewrite EP, K in IK. rewrite over_app in *. cbn [over flat_map app crit] in *. rewrite app_length in *. cbn. lia.
    + exists ad. rewrite !U. rewrite !EP, !over_app in *. cbn [over flat_map app pending computed held] in *. auto.
  - split_pool E. pose proof (IW j _ E) as W. cbn in W. constructor; cbn [mn next pool res lock calls failed]; auto.
    + now rewrite upd_len.
    + eapply main_ok_worker; [exact E|reflexivity|reflexivity|reflexivity|exact (i_main s I)].
    + apply wok_upd; [exact IW|]. intros w [= <-]. exact W.
    + rewrite U. rewrite EP in IK. rewrite over_app in *. exact IK.
    + pose proof (held_crit a) as Ha. pose proof (held_crit b) as Hb. rewrite EP, over_app in IK. cbn [over flat_map app crit] in IK. rewrite app_length in IK. cbn [length] in IK.
      assert (Ha0 : over held a = []) by (destruct (over held a); [reflexivity|cbn [length] in *; unfold over in *; destruct (lock s); lia]).
      assert (Hb0 : over held b = []) by (destruct (over held b); [reflexivity|cbn [length] in *; unfold over in *; destruct (lock s); lia]).
      exists ad. rewrite !U. rewrite !EP, !over_app in *. cbn [over flat_map app pending computed held] in *. fold (over held b) in *. rewrite Ha0, Hb0 in *.
      split; [exact A1|]. split; [exact A2|]. right. destruct A3 as [[_ ->]|[C _]]; [auto|discriminate C].
  - split_pool E. pose proof (IW j _ E) as W. cbn in W. destruct W as (Wi & Wp). constructor; cbn [mn next pool res lock calls failed]; auto.
    + now rewrite upd_len.
    + eapply main_ok_worker; [exact E|reflexivity|reflexivity|reflexivity|exact (i_main s I)].
    + apply wok_upd; [exact IW|]. intros w [= <-]. exact Logic.I.
    + rewrite U. rewrite EP in IK. rewrite over_app in *. exact IK.
    + pose proof (held_crit a) as Ha. pose proof (held_crit b) as Hb. rewrite EP, over_app in IK. cbn [over flat_map app crit] in IK. rewrite app_length in IK. cbn [length] in IK.
      assert (Ha0 : over held a = []) by (destruct (over held a); [reflexivity|cbn [length] in *; unfold over in *; destruct (lock s); lia]).
      assert (Hb0 : over held b = []) by (destruct (over held b); [reflexivity|cbn [length] in *; unfold over in *; destruct (lock s); lia]).
      exists (i :: ad). rewrite !U. rewrite !EP, !over_app in *. cbn [over flat_map app pending computed held] in *. fold (over held b) in *. rewrite Ha0, Hb0 in *.
      split; [|split].
      * rewrite <- A1. rewrite !app_assoc. apply Permutation_middle.
      * rewrite A2. rewrite !app_assoc. symmetry. apply Permutation_middle.
      * left. split; [reflexivity|]. destruct A3 as [[C _]|[C _]]; [discriminate C|]. cbn [app] in C. injection C as ->.
        destruct (psd_ok i Wi) as (v' & Pv & Lv). rewrite Wp in Pv. injection Pv as <-. rewrite (vsum_add i ad v Wp Lv) in P. now injection P.
  - exfalso. split_pool E. pose proof (IW j _ E) as W. cbn in W. destruct W as (Wi & Wp). destruct (psd_ok i Wi) as (v' & Pv & Lv). rewrite Wp in Pv. injection Pv as <-.
    apply (P (vsum (i :: ad))). replace tmp with (vsum ad); [now apply vsum_add|].
    pose proof (held_crit a) as Ha. rewrite EP, over_app in IK. cbn [over flat_map app crit] in IK. rewrite app_length in IK. cbn [length] in IK.
    assert (Ha0 : over held a = []) by (destruct (over held a); [reflexivity|cbn [length] in *; unfold over in *; destruct (lock s); lia]).
    rewrite !EP, !over_app, Ha0 in A3. cbn [over flat_map app held] in A3. destruct A3 as [[C _]|[C _]]; [discriminate C|]. now injection C.
  - split_pool E. constructor; cbn [mn next pool res lock calls failed]; auto.
    + now rewrite upd_len.
    + eapply main_ok_worker; [exact E|reflexivity|reflexivity|reflexivity|exact (i_main s I)].
    + apply wok_upd; [exact IW|]. intros w [= <-]. exact Logic.I.
    + rewrite U. rewrite EP in IK. rewrite over_app in *. cbn [over flat_map app crit] in *. rewrite app_length in *. cbn [length] in *. unfold over in *. destruct (lock s); lia.
    + exists ad. rewrite !U. rewrite !EP, !over_app in *. cbn [over flat_map app pending computed held] in *. auto.
Qed.
Lemma inv_reachable s : reachable zero add nthreads nseg nfft psd s -> inv s.
Proof. induction 1; [apply inv_init|eapply inv_step; eassumption]. Qed.

(** ** result *)
Lemma exit_result s : reachable zero add nthreads nseg nfft psd s -> mn s = MExit ->
  res s = vsum (seq 0 nseg) /\ Permutation (calls s) (seq 0 nseg) /\ lock s = false /\ forall j o, nth_error (pool s) j = Some o -> o = None.
Proof.
  intros R M. apply inv_reachable in R. destruct R as [F L N IM W K (ad & A1 & A2 & A3)]. unfold main_ok in IM. rewrite M in IM. destruct IM as (E & IM).
  rewrite !(over_none _ _ IM) in *. rewrite !app_nil_r in *. rewrite E in *. split; [|split; [|split]].
  - destruct A3 as [[_ ->]|[C _]]; [now apply vsum_perm|discriminate].
  - now rewrite A2.
  - cbn in K. destruct (lock s); [discriminate|reflexivity].
  - exact IM.
Qed.
(** ** progress *)
Lemma worker_progress s j w : inv s -> nth_error (pool s) j = Some (Some w) -> (forall i, w <> WDone i) ->
  exists s', step add nseg psd s s'.
Proof.
  intros I E ND. pose proof (i_failed s I) as F. pose proof (i_wok s I) as IW.
  assert (C : forall j w, nth_error (pool s) j = Some (Some w) -> (exists i v, w = WLocked i v) \/ (exists i v t, w = WMoved i v t) \/ (exists i, w = WStored i) ->
    exists s', step add nseg psd s s').
  { intros j' w' E' [(i & v & ->)|[(i & v & t & ->)|(i & ->)]].
    - eexists. eapply w_move; eassumption.
    - destruct (map2 add t v) as [r| | |] eqn:EM; [eexists; eapply w_add; eassumption| | |]; (eexists; eapply w_add_fail; [eassumption|eassumption|intros r C; congruence]).
    - eexists. eapply w_release; eassumption. }
  destruct w as [i|i v|i v|i v t|i|i]; try (eapply C; [exact E|eauto 8; fail]).
  - pose proof (IW _ _ E) as W. cbn in W. destruct (psd_ok i W) as (v & P & _). eexists. eapply w_compute; eassumption.
  - destruct (lock s) eqn:K; [|eexists; eapply w_acquire; eassumption].
    pose proof (i_lock s I) as IK. rewrite K in IK.
    assert (G : forall p, length (over crit p) = 1 -> exists j w, nth_error p j = Some (Some w) /\ crit w <> []).
    { clear. induction p as [|[w|] p IH]; cbn; intros H; [discriminate| |].
      - destruct (crit w) eqn:Ec; [|exists 0, w; split; [reflexivity|congruence]]. destruct (IH H) as (j & w' & E & C). exists (S j), w'. auto.
      - destruct (IH H) as (j & w' & E & C). exists (S j), w'. auto. }
    destruct (G _ IK) as (j' & w' & E' & C'). apply (C j' w' E'). destruct w'; cbn in C'; try congruence; eauto 8.
  - exfalso. now apply (ND i).
Qed.
Lemma progress s : reachable zero add nthreads nseg nfft psd s -> mn s = MExit \/ exists s', step add nseg psd s s'.
Proof.
  intros R. pose proof (inv_reachable s R) as I. pose proof (i_failed s I) as F. destruct (mn s) as [|j|j|] eqn:M; [| | |auto]; right.
  - destruct (Nat.lt_ge_cases (next s) nseg); [eexists; now apply s_while|eexists; now apply s_exit].
  - destruct (nth_error (pool s) j) as [[w|]|] eqn:E.
    + eexists. eapply s_terminate; eassumption.
    + eexists. eapply s_spawn; eassumption.
    + eexists. eapply s_spawned; try eassumption. now apply nth_error_None.
  - destruct (nth_error (pool s) j) as [[w|]|] eqn:E.
    + destruct w as [i|i v|i v|i v t|i|i]; try (eapply worker_progress; [exact I|exact E|discriminate]). eexists. eapply s_join; eassumption.
    + eexists. eapply s_skip; eassumption.
    + eexists. eapply s_joined; try eassumption. now apply nth_error_None.
Qed.
(** ** the sequential loop *)
Lemma accumulate_spec : forall cnt i l, i + cnt <= nseg -> accumulate add psd (vsum l) i cnt = Ok (vsum (rev (seq i cnt) ++ l)).
Proof.
  induction cnt as [|c IH]; intros i l H; [reflexivity|]. cbn [accumulate seq rev]. destruct (psd_ok i ltac:(lia)) as (v & P & L). rewrite P. cbn [bind].
  rewrite (vsum_add i l v P L). cbn [bind]. rewrite IH by lia. now rewrite <- app_assoc.
Qed.
Lemma sequential_result : accumulate add psd (repeat zero nfft) 0 nseg = Ok (vsum (seq 0 nseg)).
Proof. rewrite <- vsum_nil, accumulate_spec by lia. f_equal. apply vsum_perm. rewrite app_nil_r. symmetry. apply Permutation_rev. Qed.
(** ** mutual exclusion *)
Lemma exclusion s j k w w' : reachable zero add nthreads nseg nfft psd s -> nth_error (pool s) j = Some (Some w) -> nth_error (pool s) k = Some (Some w') ->
  crit w <> [] -> crit w' <> [] -> j = k.
Proof.
  intros R E E' C C'. apply inv_reachable in R. pose proof (i_lock s R) as K.
  destruct (Nat.eq_dec j k) as [|NE]; [assumption|exfalso].
  assert (G : forall p j k w w', nth_error p j = Some (Some w) -> nth_error p k = Some (Some w') -> crit w <> [] -> crit w' <> [] -> j < k -> 2 <= length (over crit p)).
  { clear. induction p as [|o p IH]; intros [|j] [|k] w w' E E' C C' L; cbn in E, E'; try discriminate; try lia.
    - injection E as ->. cbn. rewrite app_length. assert (1 <= length (crit w)) by (destruct (crit w); [congruence|cbn; lia]).
      assert (G : forall p k w', nth_error p k = Some (Some w') -> crit w' <> [] -> 1 <= length (over crit p)).
      { clear. induction p as [|o p IH]; intros [|k] w' E C; cbn in E; try discriminate.
        - injection E as ->. cbn. rewrite app_length. destruct (crit w'); [congruence|cbn; lia].
        - cbn. rewrite app_length. specialize (IH k w' E C). unfold over in IH. lia. }
      specialize (G p k w' E' C'). unfold over in G. lia.
    - cbn. rewrite app_length. specialize (IH j k w w' E E' C C' ltac:(lia)). unfold over in IH. lia. }
  assert (2 <= length (over crit (pool s))). { destruct (Nat.lt_ge_cases j k); [eapply G with (j := j) (k := k); eauto|eapply G with (j := k) (k := j); eauto; lia]. }
  rewrite K in H. destruct (lock s); lia.
Qed.
(** ** termination *)
Hypothesis threads_pos : 1 <= nthreads.
Definition phase (m : main) : nat :=
  match m with
  | MWhile => 3 * nthreads + 20 | MSpawn 0 => 3 * nthreads + 10 | MSpawn j => (nthreads - j) + nthreads + 2 + (3 * nthreads + 20)
  | MJoin j => (nthreads - j) + 1 + (3 * nthreads + 20) | MExit => 0
  end.
Definition ranks (p : list (option worker)) : nat := length (over (fun w => repeat tt (rank w)) p).
Definition measure (s : state) : nat := (nseg - next s) * (8 * nthreads + 60) + phase (mn s) + ranks (pool s) + (if failed s then 0 else 1).
Lemma ranks_split a o b : ranks (a ++ o :: b) = ranks a + (match o with Some w => rank w | None => 0 end) + ranks b.
Proof. unfold ranks. rewrite over_app, app_length. cbn [over flat_map]. rewrite app_length. destruct o; [rewrite repeat_length|]; cbn [length]; unfold over; lia. Qed.
Lemma measure_step s s' : inv s -> step add nseg psd s s' -> measure s' < measure s.
Proof.
  intros I St. pose proof (i_len s I) as IL. pose proof (i_next s I) as IN. pose proof (i_main s I) as IM. unfold main_ok in IM. unfold measure.
  destruct St as [F M N|F M N|j F M E|j w F M E|j F M E|j i F M E|j F M E|j F M E|j i v F E P|j i F E P|j i v F E K|j i v F E|j i v tmp r F E P|j i v tmp F E P|j i F E];
  cbn [set_main fail mn next pool failed]; rewrite ?F; rewrite ?M; try rewrite M in IM; try (split_pool E; rewrite U; rewrite EP; rewrite !ranks_split; cbn [rank]; lia).
  - cbn [phase]. lia.
  - cbn [phase]. lia.
  - destruct IM as (Hn & Hj & IM). assert (Jl : j < nthreads) by (rewrite <- IL; apply nth_error_Some; congruence). split_pool E. rewrite U. rewrite EP. rewrite !ranks_split. cbn [rank].
    replace (nseg - next s) with (S (nseg - S (next s))) by lia.
    set (X := (nseg - S (next s)) * (8 * nthreads + 60)).
    assert (EX : S (nseg - S (next s)) * (8 * nthreads + 60) = X + 8 * nthreads + 60) by (unfold X; lia). rewrite EX.
    destruct (Nat.leb_spec nseg (S (next s))); destruct j; cbn [phase]; lia.
  - lia.
  - destruct IM as (Hn & Hj & IM). destruct j; [cbn in *; lia|]. cbn [phase]. lia.
  - destruct IM as (Hj & IM). assert (Jl : j < nthreads) by (rewrite <- IL; apply nth_error_Some; congruence). split_pool E. rewrite U. rewrite EP. rewrite !ranks_split. cbn [rank phase]. lia.
  - destruct IM as (Hj & IM). assert (Jl : j < nthreads) by (rewrite <- IL; apply nth_error_Some; congruence). cbn [phase]. lia.
  - cbn [phase]. lia.
  - lia.
  - lia.
Qed.
Lemma terminates s : reachable zero add nthreads nseg nfft psd s -> Acc (fun a b => step add nseg psd b a) s.
Proof.
  intros R. remember (measure s) as n eqn:En. revert s R En. induction n as [n IH] using (well_founded_induction Nat.lt_wf_0). intros s R En.
  constructor. intros s' St. apply (IH (measure s')); [|eapply r_step; eassumption|reflexivity]. subst n. apply measure_step; [now apply inv_reachable|exact St].
Qed.
End P.

Section Compute.
Context {T : Type}.
Variables (zero : T) (add : T -> T -> T) (divn : T -> Z -> T).
Hypothesis add_assoc : forall x y z, add x (add y z) = add (add x y) z.
Hypothesis add_comm : forall x y, add x y = add y x.
Hypothesis add_0_l : forall x, add zero x = x.
(** every schedule gives the value of the sequential loop *)
Lemma compute_spectrum_spec nthreads nfft nseg psd r : (forall i, i < Z.to_nat nseg -> exists v, psd i = Ok v /\ length v = nfft) ->
  compute_spectrum zero add divn nthreads nfft nseg psd r <->
  r = Ok (map (fun k => divn (nsum zero add (fun i => nth k (seg psd i) zero) (Z.to_nat nseg)) nseg) (seq 0 nfft)).
Proof.
  intros H.
  assert (V : map (fun v => divn v nseg) (vsum zero add nfft psd (seq 0 (Z.to_nat nseg))) =
              map (fun k => divn (nsum zero add (fun i => nth k (seg psd i) zero) (Z.to_nat nseg)) nseg) (seq 0 nfft)).
  { unfold vsum. rewrite map_map. apply map_ext. intros k. f_equal. generalize (Z.to_nat nseg). clear -add_assoc add_comm add_0_l.
    induction n as [|n IH]; [reflexivity|]. rewrite seq_S, map_app, bigop_app, IH by assumption. cbn [nsum map bigop Nat.add]. f_equal. now rewrite add_comm, add_0_l. }
  assert (TM : forall (f : T -> T) l, transform1 f l = map f l) by (intros f l; induction l as [|x l IH]; [reflexivity|]; cbn [transform1 map]; now rewrite IH).
  split.
  - intros [r' _ <-|s Ht Hn R M F|s Ht Hn R F].
    + rewrite (sequential_result zero add add_assoc add_comm (Z.to_nat nseg) nfft psd H). cbn [bind]. now rewrite TM, V.
    + destruct (exit_result zero add add_assoc add_comm nthreads (Z.to_nat nseg) nfft psd H s R M) as (E & _). now rewrite E, TM, V.
    + pose proof (i_failed _ _ _ _ _ _ _ (inv_reachable zero add add_comm nthreads (Z.to_nat nseg) nfft psd H s R)). congruence.
  - intros ->. destruct (Nat.le_gt_cases nthreads 1) as [L|L]; [|destruct (Z.eq_dec nseg 1) as [L1|L1]].
    + apply cs_sequential; [auto|]. rewrite (sequential_result zero add add_assoc add_comm (Z.to_nat nseg) nfft psd H). cbn [bind]. now rewrite TM, V.
    + apply cs_sequential; [auto|]. rewrite (sequential_result zero add add_assoc add_comm (Z.to_nat nseg) nfft psd H). cbn [bind]. now rewrite TM, V.
    + assert (G : forall s, Acc (fun a b => step add (Z.to_nat nseg) psd b a) s -> reachable zero add nthreads (Z.to_nat nseg) nfft psd s ->
        exists s', reachable zero add nthreads (Z.to_nat nseg) nfft psd s' /\ mn s' = MExit).
      { induction 1 as [s _ IH]. intros R. destruct (progress zero add add_comm nthreads (Z.to_nat nseg) nfft psd H s R) as [M|(s' & St)]; [eauto|].
        apply (IH s' St). eapply r_step; eassumption. }
      destruct (G _ (terminates zero add add_comm nthreads (Z.to_nat nseg) nfft psd H ltac:(lia) _ (r_init _ _ _ _ _ _)) (r_init _ _ _ _ _ _)) as (s & R & M).
      destruct (exit_result zero add add_assoc add_comm nthreads (Z.to_nat nseg) nfft psd H s R M) as (E & _).
      rewrite <- V, <- E, <- TM. apply cs_threads; [exact L|exact L1|exact R|exact M|].
      exact (i_failed _ _ _ _ _ _ _ (inv_reachable zero add add_comm nthreads (Z.to_nat nseg) nfft psd H s R)).
Qed.
End Compute.
