(** The generator of smooth numbers (fft.hpp:116-166) enumerates them in increasing order. *)
From Coq Require Import ZArith Znumtheory.
From Verif Require Import Base Fft.
Open Scope Z_scope.

(** n is a product of elements of pfs *)
Inductive sm (pfs : list Z) : Z -> Prop :=
| sm_one : sm pfs 1
| sm_mul n p : In p pfs -> sm pfs n -> sm pfs (n * p).
Lemma sm_pos pfs n : Forall (fun p => 2 <= p) pfs -> sm pfs n -> 1 <= n.
Proof. intros H S. induction S as [|n p Hi S IH]; [lia|]. rewrite Forall_forall in H. specialize (H p Hi). nia. Qed.

Section Gen.
Variable pfs : list Z.
Hypothesis Hp2 : Forall (fun p => 2 <= p) pfs.
Hypothesis Hne : pfs <> nil.

Definition nthz (x : list Z) (i : nat) : Z := nth i x 0.
Definition lastz (x : list Z) : Z := nthz x (length x - 1).
Definition good (x : list Z) : Prop :=
  (1 <= length x)%nat /\ nthz x 0 = 1 /\ (forall i j, (i < j < length x)%nat -> nthz x i < nthz x j) /\
  (forall n, sm pfs n <-> In n x \/ (lastz x < n /\ sm pfs n)).
(** the pointer of one prime *)
Definition pinv (x : list Z) (p : Z) (h : nat) (v : Z) : Prop :=
  (h < length x)%nat /\ v = nthz x h * p /\ forall j, (j < h)%nat -> nthz x j * p <= lastz x.
Fixpoint pall (x : list Z) (ps : list Z) (hs : list nat) (vs : list Z) : Prop :=
  match ps, hs, vs with
  | [], [], [] => True
  | p :: ps', h :: hs', v :: vs' => pinv x p h v /\ pall x ps' hs' vs'
  | _, _, _ => False
  end.
Definition inv (s : hamming) : Prop := good (h_x s) /\ pall (h_x s) pfs (h_hp s) (h_hv s).

Lemma back_last x : (1 <= length x)%nat -> back x = Ok (lastz x).
Proof.
  intros H. unfold back, lastz, nthz. destruct (rev x) as [|y r] eqn:E.
  - apply (f_equal (@length Z)) in E. rewrite rev_length in E. simpl in E. lia.
  - assert (Ex : x = rev r ++ [y]) by (rewrite <- (rev_involutive x), E; reflexivity).
    clear E. subst x. rewrite app_length, rev_length. cbn [length]. rewrite app_nth2; rewrite rev_length; [|lia].
    replace (length r + 1 - 1 - length r)%nat with 0%nat by lia. reflexivity.
Qed.
Lemma good_pos x i : good x -> (i < length x)%nat -> 1 <= nthz x i.
Proof.
  intros (L & Z0 & M & _) Hi. destruct i as [|i]; [lia|]. specialize (M 0%nat (S i)). rewrite Z0 in M. lia.
Qed.
Lemma good_le_last x i : good x -> (i < length x)%nat -> nthz x i <= lastz x.
Proof.
  intros (L & Z0 & M & _) Hi. unfold lastz. destruct (Nat.eq_dec i (length x - 1)) as [->|N]; [lia|]. specialize (M i (length x - 1)%nat). lia.
Qed.
Lemma at_nthz x i : (i < length x)%nat -> at_ub x i = Ok (nthz x i).
Proof. intros H. unfold at_ub, nthz. now rewrite (nth_error_nth' x 0 H). Qed.
Lemma advance_spec x p : good x -> 2 <= p -> forall fuel h v, (length x < fuel + h)%nat -> pinv x p h v ->
  exists h' v', hamming_advance fuel x (lastz x) p h v = Ok (h', v') /\ pinv x p h' v' /\ lastz x < v'.
Proof.
  intros G Hp. induction fuel as [|f IH]; intros h v Hf (H1 & H2 & H3); [lia|]. cbn [hamming_advance].
  destruct (Z.leb_spec v (lastz x)) as [L|L].
  - assert (Hs : (S h < length x)%nat).
    { destruct (Nat.eq_dec (S h) (length x)) as [E|N]; [|lia]. exfalso.
      assert (h = length x - 1)%nat by lia. subst h v. fold (lastz x) in L. pose proof (good_pos x (length x - 1) G H1). fold (lastz x) in H. nia. }
    rewrite at_nthz by exact Hs. cbn [bind]. apply IH; [lia|]. split; [exact Hs|]. split; [reflexivity|].
    intros j Hj. destruct (Nat.eq_dec j h) as [->|N]; [lia|]. apply H3. lia.
  - exists h, v. split; [reflexivity|]. split; [split; auto|exact L].
Qed.
Lemma advance_all_spec x : good x -> forall ps hs vs, Forall (fun p => 2 <= p) ps -> pall x ps hs vs ->
  exists hs' vs', hamming_advance_all x (lastz x) ps hs vs = Ok (hs', vs') /\ pall x ps hs' vs' /\ Forall (fun v => lastz x < v) vs'.
Proof.
  intros G. induction ps as [|p ps IH]; intros [|h hs] [|v vs] F H; cbn [pall] in H; try contradiction.
  - exists [], []. cbn. auto.
  - destruct H as (H & HA). inversion F as [|? ? Fp Fps]; subst. cbn [hamming_advance_all].
    destruct (advance_spec x p G Fp (S (length x)) h v ltac:(destruct H; lia) H) as (h' & v' & E & I & L). rewrite E. cbn [bind].
    destruct (IH hs vs Fps HA) as (hs' & vs' & E2 & I2 & L2). rewrite E2. cbn [bind].
    exists (h' :: hs'), (v' :: vs'). split; [reflexivity|]. split; [split; assumption|]. now constructor.
Qed.
Lemma fold_min vs : forall v0, let m := fold_left (fun m v => if (v <? m) then v else m) vs v0 in
  (m = v0 \/ In m vs) /\ m <= v0 /\ forall v, In v vs -> m <= v.
Proof.
  induction vs as [|v vs IH]; intros v0; cbn [fold_left].
  - split; [now left|]. split; [lia|]. intros v [].
  - destruct (IH (if v <? v0 then v else v0)) as (A & B & C). set (m := fold_left _ _ _) in *.
    destruct (Z.ltb_spec v v0).
    + split; [destruct A as [A|A]; right; [left; auto|right; exact A]|]. split; [lia|]. intros w [<-|Hw]; [exact B|now apply C].
    + split; [destruct A as [A|A]; [now left|right; right; exact A]|]. split; [exact B|]. intros w [<-|Hw]; [lia|now apply C].
Qed.
Lemma pall_in x ps : forall hs vs, pall x ps hs vs -> (forall p, In p ps -> exists h v, In v vs /\ pinv x p h v) /\
  (forall v, In v vs -> exists p h, In p ps /\ pinv x p h v) /\ length ps = length vs.
Proof.
  induction ps as [|p ps IH]; intros [|h hs] [|v vs] H; cbn [pall] in H; try contradiction.
  - split; [intros ? []|]. split; [intros ? []|reflexivity].
  - destruct H as (H & HA). destruct (IH hs vs HA) as (A & B & C). split; [|split].
    + intros q [<-|Hq]; [exists h, v; split; [now left|exact H]|]. destruct (A q Hq) as (h' & v' & I & J). exists h', v'. split; [now right|exact J].
    + intros w [<-|Hw]; [exists p, h; split; [now left|exact H]|]. destruct (B w Hw) as (q & h' & I & J). exists q, h'. split; [now right|exact J].
    + simpl. now f_equal.
Qed.
(** one step appends the smallest smooth number above the last one *)
Lemma next_spec s : inv s -> exists s' m, hamming_next pfs s = Ok s' /\ inv s' /\ h_x s' = h_x s ++ [m] /\ lastz (h_x s') = m /\
  lastz (h_x s) < m /\ sm pfs m /\ forall n, sm pfs n -> lastz (h_x s) < n -> m <= n.
Proof.
  intros (G & PA). unfold hamming_next. rewrite back_last by apply G. cbn [bind].
  destruct (advance_all_spec (h_x s) G pfs (h_hp s) (h_hv s) Hp2 PA) as (hs & vs & E & I & L). rewrite E. cbn [bind].
  destruct (pall_in _ _ _ _ I) as (A & B & C).
  assert (Hvs : (0 < length vs)%nat) by (rewrite <- C; destruct pfs; [congruence|simpl; lia]).
  rewrite at_nthz by exact Hvs. cbn [bind]. set (x := h_x s) in *.
  set (m := fold_left _ vs (nthz vs 0)).
  assert (Hv0 : In (nthz vs 0) vs) by (apply nth_In; exact Hvs).
  destruct (fold_min vs (nthz vs 0)) as (M1 & _ & M3). fold m in M1, M3.
  assert (Min : In m vs) by (destruct M1 as [->|?]; assumption).
  assert (Mgt : lastz x < m) by (rewrite Forall_forall in L; now apply L).
  destruct G as (G1 & G2 & G3 & G4).
  assert (Gd : good x) by (split; [exact G1|split; [exact G2|split; [exact G3|exact G4]]]).
  assert (Hx_sm : forall i, (i < length x)%nat -> sm pfs (nthz x i)).
  { intros i Hi. apply G4. left. now apply nth_In. }
  assert (Msm : sm pfs m).
  { destruct (B m Min) as (p & h & Hp & (P1 & P2 & _)). rewrite P2. apply sm_mul; [exact Hp|now apply Hx_sm]. }
  assert (Mmin : forall n, sm pfs n -> lastz x < n -> m <= n).
  { intros n Sn. induction Sn as [|n p Hp Sn IH]; intros Hn.
    - pose proof (good_pos x (length x - 1) Gd ltac:(lia)). fold (lastz x) in H. lia.
    - pose proof (sm_pos pfs n Hp2 Sn) as Pn. assert (P2 : 2 <= p) by (rewrite Forall_forall in Hp2; now apply Hp2).
      destruct (Z.lt_ge_cases (lastz x) n) as [Ln|Ln]; [specialize (IH Ln); nia|].
      destruct (proj1 (G4 n) Sn) as [In1|[? _]]; [|lia]. apply In_nth with (d := 0) in In1. destruct In1 as (j & Hj & Ej).
      fold (nthz x j) in Ej. destruct (A p Hp) as (h & v & Iv & (P1 & Pv & P3)). specialize (M3 v Iv).
      assert (Hhj : (h <= j)%nat). { destruct (Nat.le_gt_cases h j); [assumption|]. specialize (P3 j ltac:(lia)). rewrite Ej in P3. lia. }
      assert (nthz x h <= n). { rewrite <- Ej. destruct (Nat.eq_dec h j) as [->|N]; [lia|]. specialize (G3 h j). lia. }
      nia. }
  assert (Lx : lastz (x ++ [m]) = m).
  { unfold lastz, nthz. rewrite app_length. cbn [length]. rewrite app_nth2 by lia. replace (length x + 1 - 1 - length x)%nat with 0%nat by lia. reflexivity. }
  assert (Nx : forall i, (i < length x)%nat -> nthz (x ++ [m]) i = nthz x i) by (intros i Hi; unfold nthz; now apply app_nth1).
  eexists. exists m. split; [reflexivity|]. cbn [h_x h_hp h_hv]. fold m. split; [|repeat split; auto].
  split; cbn [h_x h_hp h_hv].
  - split; [rewrite app_length; simpl; lia|]. split; [rewrite Nx by lia; exact G2|]. split.
    + intros i j Hij. rewrite app_length in Hij. cbn [length] in Hij. rewrite (Nx i) by lia.
      destruct (Nat.eq_dec j (length x)) as [->|N].
      * pose proof (good_le_last x i Gd ltac:(lia)). replace (nthz (x ++ [m]) (length x)) with m; [lia|]. unfold nthz. rewrite app_nth2 by lia. now rewrite Nat.sub_diag.
      * rewrite Nx by lia. apply G3. lia.
    + cbn [h_x]. rewrite Lx. intros n. split.
      * intros Sn. destruct (proj1 (G4 n) Sn) as [H|[H _]]; [left; apply in_or_app; now left|].
        pose proof (Mmin n Sn H). destruct (Z.eq_dec m n) as [->|N]; [left; apply in_or_app; right; now left|right; split; [lia|exact Sn]].
      * intros [H|[_ H]]; [|exact H]. apply in_app_or in H. destruct H as [H|[<-|[]]]; [|exact Msm]. apply G4. now left.
  - assert (W : forall ps hs vs, pall x ps hs vs -> pall (x ++ [m]) ps hs vs).
    { induction ps as [|p ps IHp]; intros [|h hs'] [|v vs'] H; cbn [pall] in *; try contradiction; auto.
      destruct H as ((P1 & P2 & P3) & HA). split; [|now apply IHp]. split; [rewrite app_length; lia|]. split; [now rewrite Nx|].
      intros j Hj. rewrite Nx, Lx by lia. specialize (P3 j Hj). lia. }
    apply W. exact I.
Qed.
Lemma init_inv : inv (hamming_init pfs).
Proof.
  split; cbn [h_x h_hp h_hv hamming_init].
  - split; [simpl; lia|]. split; [reflexivity|]. split; [intros i j H; cbn [length] in H; lia|]. change (lastz [1]) with 1. intros n. split.
    + intros S. pose proof (sm_pos pfs n Hp2 S). destruct (Z.eq_dec n 1) as [->|N]; [left; now left|right; split; [lia|exact S]].
    + intros [[<-|[]]|[_ H]]; [constructor|exact H].
  - assert (W : forall ps, pall [1] ps (map (fun _ => 0%nat) ps) ps).
    { induction ps as [|p ps IH]; cbn [map pall]; auto. split; [|exact IH]. split; [simpl; lia|]. split; [unfold nthz; cbn [nth]; lia|]. intros j Hj. lia. }
    apply W.
Qed.
(** the search *)
Lemma loop_spec num : forall fuel s, inv s -> (forall n, sm pfs n -> n < lastz (h_x s) -> n < num) -> (1 <= fuel)%nat ->
  match next_ugly_loop fuel pfs s num with
  | Ok (Some m) => num <= m /\ sm pfs m /\ forall n, sm pfs n -> num <= n -> m <= n
  | Ok None => lastz (h_x s) + Z.of_nat fuel <= num
  | _ => False
  end.
Proof.
  induction fuel as [|f IH]; intros s I Hlo Hf; [lia|]. cbn [next_ugly_loop].
  pose proof I as (G & _). rewrite back_last by apply G. cbn [bind].
  destruct (Z.leb_spec num (lastz (h_x s))) as [L|L].
  - split; [exact L|]. split; [apply G; left; apply nth_In; destruct G as (? & _); lia|].
    intros n Sn Hn. destruct (Z.lt_ge_cases n (lastz (h_x s))) as [X|X]; [specialize (Hlo n Sn X); lia|lia].
  - destruct (next_spec s I) as (s' & m & E & I' & Ex & El & Hm & Sm & Mn). rewrite E. cbn [bind].
    destruct f as [|f].
    + cbn [next_ugly_loop]. lia.
    + specialize (IH s' I'). destruct (next_ugly_loop (S f) pfs s' num) as [[r|]| | |]; try (apply IH; [|lia]).
      * intros n Sn Hn. rewrite El in Hn. destruct (Z.lt_ge_cases (lastz (h_x s)) n) as [X|X]; [specialize (Mn n Sn X); lia|lia].
      * enough (lastz (h_x s') + Z.of_nat (S f) <= num) by (rewrite El in *; lia). apply IH; [|lia].
        intros n Sn Hn. rewrite El in Hn. destruct (Z.lt_ge_cases (lastz (h_x s)) n) as [X|X]; [specialize (Mn n Sn X); lia|lia].
      * intros n Sn Hn. rewrite El in Hn. destruct (Z.lt_ge_cases (lastz (h_x s)) n) as [X|X]; [specialize (Mn n Sn X); lia|lia].
      * intros n Sn Hn. rewrite El in Hn. destruct (Z.lt_ge_cases (lastz (h_x s)) n) as [X|X]; [specialize (Mn n Sn X); lia|lia].
      * intros n Sn Hn. rewrite El in Hn. destruct (Z.lt_ge_cases (lastz (h_x s)) n) as [X|X]; [specialize (Mn n Sn X); lia|lia].
Qed.
Lemma ugly_spec num fuel : (1 <= fuel)%nat -> num <= Z.of_nat fuel ->
  exists m, next_ugly_loop fuel pfs (hamming_init pfs) num = Ok (Some m) /\ num <= m /\ sm pfs m /\ forall n, sm pfs n -> num <= n -> m <= n.
Proof.
  intros Hf Hn. pose proof (loop_spec num fuel (hamming_init pfs) init_inv) as H.
  change (lastz (h_x (hamming_init pfs))) with 1 in H.
  assert (H0 : forall n, sm pfs n -> n < 1 -> n < num) by (intros n S L; pose proof (sm_pos pfs n Hp2 S); lia).
  specialize (H H0 Hf). destruct (next_ugly_loop fuel pfs (hamming_init pfs) num) as [[m|]| | |]; try contradiction; [|lia].
  exists m. split; [reflexivity|exact H].
Qed.
End Gen.

(** products of 2, 3, 5 = numbers whose prime factors are 2, 3, 5 *)
Lemma prime_factor n : 1 < n -> exists p, prime p /\ (p | n).
Proof.
  intros H. pose proof (Z_lt_induction (fun n => 1 < n -> exists p, prime p /\ (p | n))) as I. apply I; [|lia|exact H].
  intros x IH Hx. destruct (prime_dec x) as [P|NP]; [exists x; split; [exact P|apply Z.divide_refl]|].
  destruct (not_prime_divide x Hx NP) as (d & Hd & Dd). destruct (IH d ltac:(lia) ltac:(lia)) as (p & Pp & Dp).
  exists p. split; [exact Pp|]. now apply Z.divide_trans with d.
Qed.
Definition smooth5 (n : Z) : Prop := 1 <= n /\ forall p, prime p -> (p | n) -> p = 2 \/ p = 3 \/ p = 5.
Lemma sm_smooth5 n : sm primes235 n <-> smooth5 n.
Proof.
  split.
  - intros S. induction S as [|n p Hp S (IH1 & IH2)].
    + split; [lia|]. intros p Pp D. apply Z.divide_1_r_nonneg in D; [|destruct Pp; lia]. subst. destruct Pp; lia.
    + assert (Hp' : p = 2 \/ p = 3 \/ p = 5) by (destruct Hp as [<-|[<-|[<-|[]]]]; auto).
      split; [lia|]. intros q Pq D. apply prime_mult in D; [|exact Pq]. destruct D as [D|D]; [now apply IH2|].
      assert (Pp : prime p).
      { destruct Hp' as [->|[->| ->]]; [apply prime_2|apply prime_3|]. apply prime_intro; [lia|]. intros n0 Hn0. apply Zgcd_1_rel_prime.
        assert (n0 = 1 \/ n0 = 2 \/ n0 = 3 \/ n0 = 4) as [->|[->|[->| ->]]] by lia; reflexivity. }
      rewrite (prime_div_prime q p Pq Pp D). exact Hp'.
  - intros (H1 & H2). revert H2. pose proof (Z_lt_induction (fun n => 1 <= n -> (forall p, prime p -> (p | n) -> p = 2 \/ p = 3 \/ p = 5) -> sm primes235 n)) as I.
    intros H2. apply I; [|lia|exact H1|exact H2]. clear. intros n IH H1 H2.
    destruct (Z.eq_dec n 1) as [->|N]; [constructor|]. destruct (prime_factor n ltac:(lia)) as (p & Pp & (q & Dq)).
    assert (Hp : p = 2 \/ p = 3 \/ p = 5) by (apply H2; [exact Pp|exists q; exact Dq]).
    rewrite Dq. apply sm_mul; [unfold primes235; simpl; lia|]. apply IH; [nia|nia|]. intros r Pr Dr. apply H2; [exact Pr|]. rewrite Dq. now apply Z.divide_mul_l.
Qed.
Lemma next_fast_len_spec num fuel : (1 <= fuel)%nat -> num <= Z.of_nat fuel ->
  exists m, next_fast_len fuel num = Ok (Some m) /\ num <= m /\ smooth5 m /\ forall n, smooth5 n -> num <= n -> m <= n.
Proof.
  intros Hf Hn. destruct (ugly_spec primes235) with (num := num) (fuel := fuel) as (m & E & A & B & C); auto.
  - unfold primes235. repeat constructor; lia.
  - discriminate.
  - exists m. split; [exact E|]. split; [exact A|]. split; [now apply sm_smooth5|]. intros n Sn. apply C. now apply sm_smooth5.
Qed.
