(** Proofs about FloatSpectral.v. *)
From Coq Require Import ZArith Reals Permutation.
From Verif Require Import Base Functional FunctionalProofs Numeric CplxR Polynomial Fft FftConv FftFacts Spec NumericProofs SpectralConc SpectralConcFacts Spectral FloatSpectral.
From Coq Require Import Lra Lia.
Open Scope nat_scope.
Set Implicit Arguments.

Definition orel {A B} (Q : A -> B -> Prop) (o : outcome A) (o' : outcome B) : Prop :=
  match o, o' with Ok a, Ok b => Q a b | RequireFail, RequireFail | UB, UB | Throw, Throw => True | _, _ => False end.
Lemma orel_bind {A B A' B'} (Q : A -> A' -> Prop) (P : B -> B' -> Prop) o o' (f : A -> outcome B) (f' : A' -> outcome B') :
  orel Q o o' -> (forall a a', Q a a' -> orel P (f a) (f' a')) -> orel P (do x <- o; f x) (do x <- o'; f' x).
Proof. intros H K. destruct o, o'; cbn in *; try contradiction; auto. Qed.
Lemma F2_len {A B} (Q : A -> B -> Prop) a b : Forall2 Q a b -> length a = length b.
Proof. induction 1; cbn; congruence. Qed.
Lemma F2_nth {A B} (Q : A -> B -> Prop) a b : Forall2 Q a b -> forall j o, nth_error a j = Some o -> exists o', nth_error b j = Some o' /\ Q o o'.
Proof. induction 1 as [|x y a b H _ IH]; intros [|j] o E; cbn in *; try discriminate; [injection E as <-; eauto|]. now apply IH. Qed.
Lemma F2_upd {A B} (Q : A -> B -> Prop) a b x y : Forall2 Q a b -> Q x y -> forall j, Forall2 Q (upd a j x) (upd b j y).
Proof. intros H Hq. induction H as [|u v a b H K IH]; intros [|j]; cbn; constructor; auto. Qed.
Lemma F2_repeat {A B} (Q : A -> B -> Prop) x y n : Q x y -> Forall2 Q (repeat x n) (repeat y n).
Proof. intros H. induction n; cbn; constructor; auto. Qed.
Lemma F2_map {A B A' B'} (Q : A -> B -> Prop) (P : A' -> B' -> Prop) f g a b : (forall x y, Q x y -> P (f x) (g y)) -> Forall2 Q a b -> Forall2 P (map f a) (map g b).
Proof. intros H. induction 1; cbn; constructor; auto. Qed.
Lemma map2_rel {A B C A' B' C'} (P : A -> A' -> Prop) (Q : B -> B' -> Prop) (W : C -> C' -> Prop) (op : A -> B -> C) (op' : A' -> B' -> C') :
  (forall x x' y y', P x x' -> Q y y' -> W (op x y) (op' x' y')) -> forall a a' b b', Forall2 P a a' -> Forall2 Q b b' -> orel (Forall2 W) (map2 op a b) (map2 op' a' b').
Proof.
  intros H a a' b b' Ha Hb. unfold map2, map2_fresh. rewrite <- (F2_len Ha), <- (F2_len Hb). destruct (length a =? length b); [|exact I]. cbn [require].
  revert b b' Hb. induction Ha as [|x x' a a' K Ka IH]; intros b b' Hb; [constructor|]. destruct Hb as [|y y' b b' L Lb]; [exact I|]. cbn [transform2].
  apply (orel_bind (Forall2 W)); [now apply IH|]. intros u u' Hu. constructor; auto.
Qed.

(** ** related values: every execution of one program is matched by an execution of the other *)
Section Sim.
Context {T T' : Type}.
Variables (zero : T) (add : T -> T -> T) (zero' : T') (add' : T' -> T' -> T') (Q : T -> T' -> Prop).
Hypothesis h0 : Q zero zero'.
Hypothesis hadd : forall x x' y y', Q x x' -> Q y y' -> Q (add x y) (add' x' y').
Variables (nthreads nseg nfft : nat) (psd : nat -> outcome (list T)) (psd' : nat -> outcome (list T')).
Hypothesis hpsd : forall i, orel (Forall2 Q) (psd i) (psd' i).
Notation V := (Forall2 Q).

Inductive wrel : @worker T -> @worker T' -> Prop :=
| wr1 i : wrel (WStart i) (WStart i)
| wr2 i v v' : V v v' -> wrel (WReady i v) (WReady i v')
| wr3 i v v' : V v v' -> wrel (WLocked i v) (WLocked i v')
| wr4 i v v' t t' : V v v' -> V t t' -> wrel (WMoved i v t) (WMoved i v' t')
| wr5 i : wrel (WStored i) (WStored i)
| wr6 i : wrel (WDone i) (WDone i).
Inductive prel : option (@worker T) -> option (@worker T') -> Prop :=
| pr0 : prel None None
| pr1 w w' : wrel w w' -> prel (Some w) (Some w').
Record srel (s : @state T) (s' : @state T') : Prop := {
  q_mn : mn s = mn s'; q_next : next s = next s'; q_pool : Forall2 prel (pool s) (pool s'); q_res : V (res s) (res s'); q_lock : lock s = lock s';
  q_failed : failed s = failed s' }.
Lemma step_sim s s' t : srel s s' -> step add nseg psd s t -> exists t', step add' nseg psd' s' t' /\ srel t t'.
Proof.
  intros [EM EN EP ER EL EF] St.
  assert (U : forall j x x', prel x x' -> Forall2 prel (upd (pool s) j x) (upd (pool s') j x')) by (intros; now apply F2_upd).
  pose proof (F2_nth EP) as PE. pose proof (F2_len EP) as PL.
  assert (PN : forall j, nth_error (pool s) j = Some None -> nth_error (pool s') j = Some None).
  { intros j H. destruct (PE j _ H) as (o & E & K). inversion K; subst. exact E. }
  assert (PS : forall j w, nth_error (pool s) j = Some (Some w) -> exists w', nth_error (pool s') j = Some (Some w') /\ wrel w w').
  { intros j w H. destruct (PE j _ H) as (o & E & K). inversion K; subst. eauto. }
  destruct St as [F M N|F M N|j F M E|j w F M E|j F M E|j i F M E|j F M E|j F M E|j i v F E P|j i F E P|j i v F E K|j i v F E|j i v tmp r F E P|j i v tmp F E P|j i F E];
    rewrite ?EM, ?EN, ?EF, ?EL, ?PL in *.
  - eexists. split; [now apply s_while|]. constructor; cbn; auto.
  - eexists. split; [now apply s_exit|]. constructor; cbn; auto.
  - apply PN in E. eexists. split; [eapply s_spawn; eassumption|]. constructor; cbn; auto. apply U. constructor. constructor.
  - destruct (PS _ _ E) as (w' & E' & Kw). eexists. split; [eapply s_terminate; eassumption|]. constructor; cbn; auto.
  - eexists. split; [eapply s_spawned; eassumption|]. constructor; cbn; auto.
  - destruct (PS _ _ E) as (w' & E' & Kw). inversion Kw; subst. eexists. split; [eapply s_join; eassumption|]. constructor; cbn; auto. apply U. constructor.
  - apply PN in E. eexists. split; [eapply s_skip; eassumption|]. constructor; cbn; auto.
  - eexists. split; [eapply s_joined; eassumption|]. constructor; cbn; auto.
  - destruct (PS _ _ E) as (w' & E' & Kw). inversion Kw; subst. pose proof (hpsd i) as H. rewrite P in H. destruct (psd' i) as [v'| | |] eqn:P'; try contradiction.
    eexists. split; [eapply w_compute; eassumption|]. constructor; cbn; auto. apply U. constructor. now constructor.
  - destruct (PS _ _ E) as (w' & E' & Kw). inversion Kw; subst. eexists. split; [eapply w_require; [eassumption|eassumption|]|constructor; cbn; auto].
    intros v' C. pose proof (hpsd i) as H. rewrite C in H. destruct (psd i) as [v| | |] eqn:Pv; try contradiction. now apply (P v).
  - destruct (PS _ _ E) as (w' & E' & Kw). inversion Kw; subst. eexists. split; [eapply w_acquire; eassumption|]. constructor; cbn; auto. apply U. constructor. now constructor.
  - destruct (PS _ _ E) as (w' & E' & Kw). inversion Kw; subst. eexists. split; [eapply w_move; eassumption|]. constructor; cbn; auto. apply U. constructor. now constructor.
  - destruct (PS _ _ E) as (w' & E' & Kw). inversion Kw as [| | |i' v0 v' t0 t' Hv Ht| |]; subst. pose proof (@map2_rel _ _ _ _ _ _ Q Q Q add add' hadd _ _ _ _ Ht Hv) as H. rewrite P in H.
    destruct (map2 add' t' v') as [r'| | |] eqn:P'; try contradiction. eexists. split; [eapply w_add; eassumption|]. constructor; cbn; auto. apply U. constructor. constructor.
  - destruct (PS _ _ E) as (w' & E' & Kw). inversion Kw as [| | |i' v0 v' t0 t' Hv Ht| |]; subst. pose proof (@map2_rel _ _ _ _ _ _ Q Q Q add add' hadd _ _ _ _ Ht Hv) as H.
    eexists. split; [eapply w_add_fail; [eassumption|eassumption|]|constructor; cbn; auto]. intros r C. rewrite C in H. destruct (map2 add tmp v) as [r'| | |] eqn:Pr; try contradiction.
    now apply (P r').
  - destruct (PS _ _ E) as (w' & E' & Kw). inversion Kw; subst. eexists. split; [eapply w_release; eassumption|]. constructor; cbn; auto. apply U. constructor. constructor.
Qed.
Lemma reachable_sim s : reachable zero add nthreads nseg nfft psd s -> exists s', reachable zero' add' nthreads nseg nfft psd' s' /\ srel s s'.
Proof.
  induction 1 as [|s t _ (s' & R & K) St].
  - eexists. split; [constructor|]. constructor; cbn; auto; apply F2_repeat; [constructor|exact h0].
  - destruct (step_sim K St) as (t' & St' & K'). exists t'. split; [eapply r_step; eassumption|exact K'].
Qed.
Lemma accumulate_sim : forall cnt i r r', V r r' -> orel V (accumulate add psd r i cnt) (accumulate add' psd' r' i cnt).
Proof.
  induction cnt as [|c IH]; intros i r r' H; [exact H|]. cbn [accumulate]. apply (orel_bind V); [apply hpsd|]. intros p p' Hp.
  apply (orel_bind V); [exact (@map2_rel _ _ _ _ _ _ Q Q Q add add' hadd _ _ _ _ H Hp)|]. intros q q' Hq. now apply IH.
Qed.
End Sim.
Lemma compute_sim {T T'} (zero : T) add divn (zero' : T') add' divn' (Q P : T -> T' -> Prop) nthreads nfft nseg psd psd' r : Q zero zero' ->
  (forall x x' y y', Q x x' -> Q y y' -> Q (add x y) (add' x' y')) -> (forall x x', Q x x' -> P (divn x nseg) (divn' x' nseg)) ->
  (forall i, orel (Forall2 Q) (psd i) (psd' i)) ->
  compute_spectrum zero add divn nthreads nfft nseg psd r -> exists r', compute_spectrum zero' add' divn' nthreads nfft nseg psd' r' /\ orel (Forall2 P) r r'.
Proof.
  intros h0 ha hd hp C.
  assert (D : forall l l', Forall2 Q l l' -> Forall2 P (transform1 (fun v => divn v nseg) l) (transform1 (fun v => divn' v nseg) l')).
  { intros l l'. rewrite !transform1_map. now apply F2_map. }
  destruct C as [r H E|s H1 H2 R M F|s H1 H2 R F].
  - eexists. split; [apply cs_sequential; [exact H|reflexivity]|]. rewrite <- E. apply (orel_bind (Forall2 Q)).
    + now apply accumulate_sim; [exact ha|exact hp|apply F2_repeat].
    + intros a a' K. now apply D.
  - destruct (@reachable_sim _ _ zero add zero' add' Q h0 ha nthreads (Z.to_nat nseg) nfft psd psd' hp s R) as (s' & R' & K). eexists. split; [apply (@cs_threads _ _ _ _ _ _ _ _ s'); auto; [now rewrite <- (q_mn K)|now rewrite <- (q_failed K)]|].
    apply D. exact (q_res K).
  - destruct (@reachable_sim _ _ zero add zero' add' Q h0 ha nthreads (Z.to_nat nseg) nfft psd psd' hp s R) as (s' & R' & K). eexists. split; [apply (@cs_failed _ _ _ _ _ _ _ _ s'); auto; now rewrite <- (q_failed K)|exact I].
Qed.

(** ** the functions of Spectrum *)
Lemma F2_last {A B} (Q : A -> B -> Prop) a b : Forall2 Q a b -> a <> [] -> forall d e, Forall2 Q (removelast a) (removelast b) /\ Q (last a d) (last b e).
Proof.
  intros H N d e. destruct (exists_last N) as (l & z & ->). apply Forall2_app_inv_l in H. destruct H as (l' & t & H1 & H2 & ->).
  inversion H2 as [|? z' ? t' Hz Ht]; subst. inversion Ht; subst. now rewrite !removelast_last, !last_last.
Qed.
Lemma half_front_sim {A B} (Q : A -> B -> Prop) s s' a b : (forall x y, Q x y -> Q (s (1 / 2)%R x) (s' (1 / 2)%R y)) -> Forall2 Q a b ->
  orel (Forall2 Q) (half_front s a) (half_front s' b).
Proof. intros H K. destruct K; cbn; [exact I|]. constructor; auto. Qed.
Lemma half_back_sim {A B} (Q : A -> B -> Prop) s s' a b : (forall x y, Q x y -> Q (s (1 / 2)%R x) (s' (1 / 2)%R y)) -> Forall2 Q a b ->
  orel (Forall2 Q) (half_back s a) (half_back s' b).
Proof.
  intros H K. destruct K as [|x y a b Hx Hr]; [exact I|]. unfold half_back. cbn [orel].
  assert (K : Forall2 Q (x :: a) (y :: b)) by (now constructor). destruct (F2_last K ltac:(discriminate) x y) as (K1 & K2).
  apply Forall2_app; [exact K1|]. repeat constructor. now apply H.
Qed.
Lemma normalize_sim {A B} (Q P : A -> B -> Prop) rnd s q s' q' c sc sd a b : (forall k x y, k = 2%R \/ k = (1 / 2)%R -> Q x y -> Q (s k x) (s' k y)) ->
  (forall x y, sc = DENSITY -> Q x y -> P (q x (fs_mul rnd (c_fs c) (c_s2 c))) (q' y (fs_mul rnd (c_fs c) (c_s2 c)))) ->
  (forall x y, sc = SPECTRUM -> Q x y -> P (q x (c_s1 c)) (q' y (c_s1 c))) -> (forall x y, sc = NONE -> Q x y -> P x y) ->
  Forall2 Q a b -> orel (Forall2 P) (fl_normalize rnd s q c sc sd a) (fl_normalize rnd s' q' c sc sd b).
Proof.
  intros Hs Hd H1 Hn K. unfold fl_normalize. apply (orel_bind (Forall2 Q)).
  - destruct sd; [|exact K]. apply (orel_bind (Forall2 Q)).
    + apply half_front_sim; [intros; apply Hs; auto|]. rewrite !transform1_map. eapply F2_map; [|exact K]; intros; apply Hs; auto.
    + intros u u' Hu. destruct (_ =? 0)%Z; [|exact Hu]. apply half_back_sim; [intros; apply Hs; auto|exact Hu].
  - intros u u' Hu. destruct sc; cbn [orel]; rewrite ?transform1_map.
    + clear Hd H1. induction Hu; constructor; auto.
    + eapply F2_map; [|exact Hu]; auto.
    + eapply F2_map; [|exact Hu]; auto.
Qed.
Lemma segment_cases {E1 E2} c (x : list E1) (y : list E2) i : length x = length y ->
  (exists sx sy, segment c x i = Ok sx /\ segment c y i = Ok sy /\ length sx = length (c_window c) /\ length sy = length (c_window c)) \/
  (segment c x i = RequireFail /\ segment c y i = RequireFail) \/ (segment c x i = UB /\ segment c y i = UB).
Proof.
  intros L. unfold segment, subvector. rewrite <- L. destruct (_ && _)%bool; cbn [bind]; [|auto].
  rewrite !firstn_length, !skipn_length, <- L. destruct (Nat.eqb_spec (Nat.min (Z.to_nat (Z.min (c_nperseg c) (Z.of_nat (length x)))) (length x - Z.to_nat (Z.of_nat i * nstep c))) (length (c_window c))) as [E|];
    cbn [require]; [|auto]. left. eexists. eexists. split; [reflexivity|]. split; [reflexivity|]. rewrite !firstn_length, !skipn_length, <- L. auto.
Qed.
Lemma segment_len {E1} c (x : list E1) i sx : segment c x i = Ok sx -> length sx = length (c_window c).
Proof. intros H. destruct (segment_cases c x x i eq_refl) as [(s1 & s2 & E & _ & L & _)|[(E & _)|(E & _)]]; congruence. Qed.
Lemma nseg_cases c n : nseg c n = UB \/ exists k, nseg c n = Ok k.
Proof. unfold nseg. destruct (_ =? 0)%Z; eauto. Qed.

Section Odd.
Variable rnd : R -> R.
Hypothesis odd : forall x, rnd (- x) = (- rnd x)%R.
Lemma rnd0 : rnd 0 = 0%R. Proof. pose proof (odd 0) as H. rewrite Ropp_0 in H. lra. Qed.
Definition cj (a b : cx) : Prop := b = xconj a.
Lemma conj_mul a b : fs_cmul rnd (xconj b) a = xconj (fs_cmul rnd (xconj a) b).
Proof.
  destruct a as [a1 a2], b as [b1 b2]. unfold fs_cmul, xconj. cbn [fst snd]. rewrite <- odd. f_equal; f_equal.
  - now rewrite (Rmult_comm b1 a1), <- !Ropp_mult_distr_l, (Rmult_comm b2 a2).
  - rewrite <- !Ropp_mult_distr_l, !odd, (Rmult_comm b1 a2), (Rmult_comm b2 a1). lra.
Qed.
Lemma map2_swap fx : forall fy, orel (Forall2 cj) (map2 (fs_cmul rnd) (map xconj fx) fy) (map2 (fs_cmul rnd) (map xconj fy) fx).
Proof.
  intros fy. unfold map2, map2_fresh. rewrite !map_length, (Nat.eqb_sym (length fy)). destruct (Nat.eqb_spec (length fx) (length fy)) as [L|]; [|exact I]. cbn [require].
  revert fy L. induction fx as [|a fx IH]; intros [|b fy] L; cbn in L; try discriminate; [constructor|]. cbn [map transform2].
  apply (orel_bind (Forall2 cj)); [apply IH; lia|]. intros u u' Hu. constructor; [apply conj_mul|exact Hu].
Qed.
Lemma cj_conj r r' : orel (Forall2 cj) r r' -> r' = omap (map xconj) r.
Proof.
  destruct r as [v| | |], r' as [v'| | |]; cbn; try contradiction; try reflexivity. intros H. f_equal. induction H as [|a b v v' H _ IH]; [reflexivity|]. cbn. now rewrite <- H, <- IH.
Qed.
Lemma normalize_cj c sc sd a b : Forall2 cj a b -> orel (Forall2 cj) (fl_normalize rnd (fs_cscale rnd) (fs_cdiv rnd) c sc sd a) (fl_normalize rnd (fs_cscale rnd) (fs_cdiv rnd) c sc sd b).
Proof.
  assert (O : forall z k, fs_cdiv rnd (xconj z) k = xconj (fs_cdiv rnd z k)).
  { intros [p q] k. unfold fs_cdiv, xconj. cbn [fst snd]. f_equal. rewrite <- odd. f_equal. unfold Rdiv. ring. }
  intros H. apply (@normalize_sim _ _ cj cj); auto; unfold cj.
  - intros k [x1 x2] y _ ->. unfold fs_cscale, xconj. cbn [fst snd]. f_equal. rewrite <- odd. f_equal. ring.
  - intros x y _ ->. apply O.
  - intros x y _ ->. apply O.
Qed.
Section Swap.
Context {E1 E2 : Type}.
Variables (zero1 : E1) (zero2 : E2) (spec1 : list R -> list E1 -> outcome (list cx)) (spec2 : list R -> list E2 -> outcome (list cx)) (c : config).
Hypothesis tot1 : forall s, length s = length (c_window c) -> exists f, spec1 (c_window c) s = Ok f.
Hypothesis tot2 : forall s, length s = length (c_window c) -> exists f, spec2 (c_window c) s = Ok f.
Lemma segment_swap x y i : length x = length y -> orel (Forall2 cj) (fl_csd_segment rnd spec1 spec2 c x y i) (fl_csd_segment rnd spec2 spec1 c y x i).
Proof.
  intros L. unfold fl_csd_segment. destruct (segment_cases c x y i L) as [(sx & sy & Ex & Ey & Lx & Ly)|[(Ex & Ey)|(Ex & Ey)]]; rewrite Ex, Ey; cbn [bind]; try exact I.
  destruct (tot1 sx Lx) as (fx & Fx). destruct (tot2 sy Ly) as (fy & Fy). rewrite Fx, Fy. cbn [bind]. rewrite !transform1_map. apply map2_swap.
Qed.
Lemma same_swap sd sc x y r : length x = length y -> fl_csd_same rnd spec1 spec2 sd c sc x y r -> exists r', fl_csd_same rnd spec2 spec1 sd c sc y x r' /\ orel (Forall2 cj) r r'.
Proof.
  intros L [p H]. assert (exists p', fl_welch2_impl rnd spec2 spec1 c (nbins sd c) y x p' /\ orel (Forall2 cj) p p') as (p' & H' & K).
  { destruct H as [N|n r' _ En C|_ En]; [contradiction| |].
    - apply (@compute_sim _ _ _ _ _ x0 (fs_cadd rnd) (fun v n => fs_cdiv rnd v (rnd (IZR n))) cj cj _ _ _ _ (fl_csd_segment rnd spec2 spec1 c y x)) in C.
      + destruct C as (q & C & K). exists q. split; [|exact K]. eapply fw2_run; [now symmetry|rewrite <- L; exact En|exact C].
      + unfold cj, xconj, x0. cbn. now rewrite Ropp_0.
      + unfold cj. intros [p1 p2] ? [q1 q2] ? -> ->. unfold fs_cadd, xconj. cbn [fst snd]. f_equal. rewrite <- odd. f_equal. ring.
      + unfold cj. intros [p1 p2] ? ->. unfold fs_cdiv, xconj. cbn [fst snd]. f_equal. rewrite <- odd. f_equal. unfold Rdiv. ring.
      + intros i. now apply segment_swap.
    - exists UB. split; [|exact I]. apply fw2_ub; [now symmetry|now rewrite <- L]. }
  eexists. split; [constructor; exact H'|]. apply (orel_bind (Forall2 cj)); [exact K|]. intros. now apply normalize_cj.
Qed.
Lemma zp_len {E} (z : E) v n v' : length v < n -> zero_padding_const z v n = Ok v' -> length v' = n.
Proof. rewrite zero_padding_const_spec. intros H [= <-]. rewrite app_length, firstn_length, repeat_length. lia. Qed.
Lemma csd_swap sd sc x y r : fl_csd rnd zero1 zero2 spec1 spec2 sd c sc x y r -> fl_csd rnd zero2 zero1 spec2 spec1 sd c sc y x (omap (map xconj) r).
Proof.
  intros [H|r' Nx Ny L H|y' r' Nx Ny L Ez H|x' r' Nx Ny L Ez H].
  - cbn. apply fc_empty. tauto.
  - destruct (same_swap L H) as (q & Hq & K). apply cj_conj in K. rewrite <- K. now apply fc_same.
  - pose proof (zp_len _ _ L Ez) as Ly. destruct (same_swap (eq_sym Ly) H) as (q & Hq & K). apply cj_conj in K. rewrite <- K. now apply fc_pad_x with y'.
  - pose proof (zp_len _ _ L Ez) as Lx. destruct (same_swap Lx H) as (q & Hq & K). apply cj_conj in K. rewrite <- K. now apply fc_pad_y with x'.
Qed.
End Swap.

(** ** csd of a signal with itself *)
Definition rl (z : cx) (p : R) : Prop := z = (p, 0)%R.
Lemma rl_add z z' p p' : rl z p -> rl z' p' -> rl (fs_cadd rnd z z') (fs_add rnd p p').
Proof. unfold rl. intros -> ->. unfold fs_cadd, fs_add. cbn [fst snd]. now rewrite Rplus_0_r, rnd0. Qed.
Lemma rl_div z p k : rl z p -> rl (fs_cdiv rnd z k) (fs_div rnd p k).
Proof. unfold rl. intros ->. unfold fs_cdiv, fs_div. cbn [fst snd]. unfold Rdiv at 2. now rewrite Rmult_0_l, rnd0. Qed.
Lemma rl_scale z p k : rl z p -> rl (fs_cscale rnd k z) (fs_mul rnd k p).
Proof. unfold rl. intros ->. unfold fs_cscale, fs_mul. cbn [fst snd]. now rewrite Rmult_0_r, rnd0. Qed.
Lemma norm_mul z : fs_cmul rnd (xconj z) z = (fs_norm rnd z, 0)%R.
Proof.
  destruct z as [a b]. unfold fs_cmul, fs_norm, xconj. cbn [fst snd]. f_equal.
  - f_equal. rewrite <- Ropp_mult_distr_l, odd. ring.
  - rewrite <- Ropp_mult_distr_l, odd, (Rmult_comm b a). rewrite Rplus_opp_r. apply rnd0.
Qed.
Section Self.
Context {E : Type}.
Variables (zero : E) (spec : list R -> list E -> outcome (list cx)) (c : config).
Lemma segment_self x i : orel (Forall2 rl) (fl_csd_segment rnd spec spec c x x i) (fl_psd_segment rnd spec c x i).
Proof.
  unfold fl_csd_segment, fl_psd_segment. destruct (segment c x i) as [s| | |]; cbn [bind]; try exact I.
  destruct (spec (c_window c) s) as [f| | |]; cbn [bind]; try exact I. rewrite !transform1_map. rewrite map2_ok by apply map_length. cbn [orel].
  clear zero. clear -odd. induction f as [|z f IH]; cbn; [constructor|]. constructor; [apply norm_mul|exact IH].
Qed.
Lemma F2_flip {A B} (Q : A -> B -> Prop) a b : Forall2 Q a b -> Forall2 (fun x y => Q y x) b a.
Proof. induction 1; constructor; auto. Qed.
Lemma orel_flip {A B} (Q : A -> B -> Prop) a b : orel (Forall2 Q) a b -> orel (Forall2 (fun x y => Q y x)) b a.
Proof. destruct a, b; cbn; auto. apply F2_flip. Qed.
Lemma normalize_rl sc sd a b : Forall2 rl a b -> orel (Forall2 rl) (fl_normalize rnd (fs_cscale rnd) (fs_cdiv rnd) c sc sd a) (fl_normalize rnd (fs_mul rnd) (fs_div rnd) c sc sd b).
Proof.
  intros H. apply (@normalize_sim _ _ rl rl); auto.
  - intros k z p _. apply rl_scale.
  - intros z p _. apply rl_div.
  - intros z p _. apply rl_div.
Qed.
Lemma rl_eq r r' : orel (Forall2 rl) r r' -> r = omap (map (fun p => (p, 0)%R)) r'.
Proof.
  destruct r as [v| | |], r' as [v'| | |]; cbn; try contradiction; try reflexivity. intros H. f_equal. induction H as [|a b v v' H _ IH]; [reflexivity|]. cbn. now rewrite <- H, <- IH.
Qed.
Lemma csd_self sd sc x r : fl_csd rnd zero zero spec spec sd c sc x x r <-> exists p, fl_welch rnd spec sd c sc x p /\ r = omap (map (fun p => (p, 0)%R)) p.
Proof.
  split.
  - intros [H|r' Nx Ny L H|y' r' Nx Ny L Ez H|x' r' Nx Ny L Ez H]; [exists (Ok []); split; [apply fw_empty; tauto|reflexivity]| |lia|lia].
    destruct H as [q H]. assert (exists p, fl_welch_impl rnd spec c (nbins sd c) x p /\ orel (Forall2 rl) q p) as (p & Hp & K).
    { destruct H as [N|n r' _ En C|_ En]; [contradiction| |].
      - apply (@compute_sim _ _ _ _ _ 0%R (fs_add rnd) (fun v n => fs_div rnd v (rnd (IZR n))) rl rl _ _ _ _ (fl_psd_segment rnd spec c x)) in C.
        + destruct C as (p & C & K). exists p. split; [|exact K]. eapply fwi_run; eassumption.
        + reflexivity.
        + intros. now apply rl_add.
        + intros. now apply rl_div.
        + intros i. apply segment_self.
      - exists UB. split; [now apply fwi_ub|exact I]. }
    eexists. split; [apply fw_run; [exact Nx|exact Hp]|]. apply rl_eq. apply (orel_bind (Forall2 rl)); [exact K|]. intros. now apply normalize_rl.
  - intros (p & [N|q Nx H] & ->); [cbn; apply fc_empty; tauto|].
    assert (exists z, fl_welch2_impl rnd spec spec c (nbins sd c) x x z /\ orel (Forall2 rl) z q) as (z & Hz & K).
    { destruct H as [n r' En C|En].
      - apply (@compute_sim _ _ _ _ _ x0 (fs_cadd rnd) (fun v n => fs_cdiv rnd v (rnd (IZR n))) (fun p z => rl z p) (fun p z => rl z p) _ _ _ _ (fl_csd_segment rnd spec spec c x x)) in C.
        + destruct C as (z & C & K). exists z. split; [eapply fw2_run; [reflexivity|exact En|exact C]|]. now apply orel_flip in K.
        + reflexivity.
        + intros. now apply rl_add.
        + intros. now apply rl_div.
        + intros i. apply orel_flip. apply segment_self.
      - exists UB. split; [now apply fw2_ub|exact I]. }
    replace (omap (map (fun p => (p, 0)%R)) (do v <- q; fl_normalize rnd (fs_mul rnd) (fs_div rnd) c sc sd v)) with
      (do v <- z; fl_normalize rnd (fs_cscale rnd) (fs_cdiv rnd) c sc sd v).
    + apply fc_same; [exact Nx|exact Nx|reflexivity|]. constructor. exact Hz.
    + apply rl_eq. apply (orel_bind (Forall2 rl)); [exact K|]. intros. now apply normalize_rl.
Qed.
End Self.
End Odd.

(** ** positivity *)
Section Pos.
Variable rnd : R -> R.
Hypothesis mono : forall x y, (x <= y)%R -> (rnd x <= rnd y)%R.
Hypothesis r0 : rnd 0 = 0%R.
Lemma rnd_pos x : (0 <= x)%R -> (0 <= rnd x)%R. Proof. intros H. rewrite <- r0. now apply mono. Qed.
Lemma norm_pos z : (0 <= fs_norm rnd z)%R.
Proof. apply rnd_pos. apply Rplus_le_le_0_compat; apply rnd_pos; apply Rle_0_sqr. Qed.
Definition nn (x : R) (_ : unit) : Prop := (0 <= x)%R.
Lemma nn_list l : Forall2 nn l (map (fun _ => tt) l) <-> Forall (fun x => (0 <= x)%R) l.
Proof. induction l as [|x l IH]; cbn; split; intros H; constructor; inversion H; subst; tauto. Qed.
Lemma nn_list' l l' : Forall2 nn l l' -> Forall (fun x => (0 <= x)%R) l.
Proof. induction 1; constructor; auto. Qed.
Lemma div_pos x k : (0 <= x)%R -> (0 < k)%R -> (0 <= fs_div rnd x k)%R.
Proof. intros H K. apply rnd_pos. apply Rmult_le_pos; [exact H|]. left. now apply Rinv_0_lt_compat. Qed.
Lemma welch_pos {E} (spec : list R -> list E -> outcome (list cx)) sd c sc x v : (sc = DENSITY -> 0 < rnd (c_fs c * c_s2 c))%R -> (sc = SPECTRUM -> 0 < c_s1 c)%R ->
  (forall n, nseg c (length x) = Ok n -> 0 < rnd (IZR n))%R -> fl_welch rnd spec sd c sc x (Ok v) -> Forall (fun p => 0 <= p)%R v.
Proof.
  intros Hd Hs Hn H. inversion H as [N E0|p Nx Hp E0]; subst; [constructor|]. destruct p as [p| | |]; try discriminate. cbn [bind] in E0.
  assert (Pp : Forall (fun x => (0 <= x)%R) p).
  { inversion Hp as [n r En C|]; subst.
    apply (@compute_sim _ _ _ _ _ tt (fun _ _ => tt) (fun _ _ => tt) nn nn _ _ _ _ (fun i => omap (map (fun _ => tt)) (fl_psd_segment rnd spec c x i))) in C.
    - destruct C as ([q| | |] & _ & K); try contradiction. now apply nn_list' in K.
    - unfold nn. lra.
    - unfold nn. intros a _ b _ Ha Hb. apply rnd_pos. lra.
    - unfold nn. intros a _ Ha. apply div_pos; [exact Ha|now apply Hn].
    - intros i. unfold fl_psd_segment. destruct (segment c x i) as [s| | |]; cbn [bind omap]; try exact I. destruct (spec _ s) as [f| | |]; cbn [bind omap]; try exact I.
      apply nn_list. rewrite transform1_map. apply Forall_map. apply Forall_forall. intros; apply norm_pos. }
  assert (Q : orel (Forall2 nn) (Ok v) (fl_normalize rnd (fun _ _ => tt) (fun _ _ => tt) c sc sd (map (fun _ => tt) p))).
  { rewrite <- E0. apply (@normalize_sim _ _ nn nn); unfold nn.
    - intros k a _ Hk Ha. apply rnd_pos. destruct Hk; subst k; lra.
    - intros a _ Es Ha. apply div_pos; [exact Ha|]. now apply Hd.
    - intros a _ Es Ha. apply div_pos; auto.
    - auto.
    - now apply nn_list. }
  unfold orel in Q. match type of Q with match ?o with _ => _ end => destruct o as [q| | |] end; try contradiction. now apply nn_list' in Q.
Qed.
End Pos.
