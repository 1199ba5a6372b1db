(** Proofs about windows.hpp that hold for every element type and arithmetic. *)
From Coq Require Import ZArith.
From Verif Require Import Base Functional FunctionalProofs Spec SumLib Windows.
Open Scope nat_scope.

Section Filler.
Context {T : Type}.
Lemma nth_error_ext (a : list T) : forall b, (forall i, nth_error a i = nth_error b i) -> a = b.
Proof.
  induction a as [|x a IH]; intros [|y b] H; [reflexivity|specialize (H 0); discriminate|specialize (H 0); discriminate|].
  f_equal; [specialize (H 0); now injection H|]. apply IH. intros i. exact (H (S i)).
Qed.
Lemma upd_length (v : list T) i x : length (upd v i x) = length v.
Proof. revert i; induction v as [|y v IH]; intros [|i]; simpl; auto. Qed.
Lemma nth_error_upd (v : list T) : forall i j x, i < length v -> nth_error (upd v i x) j = if i =? j then Some x else nth_error v j.
Proof. induction v as [|y v IH]; intros [|i] [|j] x H; simpl in *; try lia; auto. apply IH. lia. Qed.
Lemma reverse_copy_spec n : forall cnt (w : list T) d, length w = n -> d + cnt <= n -> n - d - cnt <= n -> cnt <= n - d ->
  (d + cnt <= n - d - cnt + 1) ->
  exists r, reverse_copy_loop w (n - d) d cnt = Ok r /\ length r = n /\
    forall j, nth_error r j = if (d <=? j) && (j <? d + cnt) then nth_error w (n - 1 - j) else nth_error w j.
Proof.
  induction cnt as [|cnt IH]; intros w d L H1 H2 H3 H4.
  - exists w. split; [reflexivity|]. split; [exact L|]. intros j. destruct (Nat.leb_spec d j), (Nat.ltb_spec j (d + 0)); cbn [andb]; try reflexivity; lia.
  - cbn [reverse_copy_loop]. unfold at_ub. destruct (nth_error w (n - d - 1)) as [x|] eqn:E; [|apply nth_error_None in E; lia]. cbn [bind].
    unfold set_ub. destruct (Nat.ltb_spec d (length w)); [|lia]. cbn [bind].
    destruct (IH (upd w d x) (S d)) as (r & E' & L' & N'); [now rewrite upd_length|lia|lia|lia|lia|].
    exists r. split; [rewrite <- E'; f_equal; lia|]. split; [exact L'|]. intros j. rewrite N'. rewrite !nth_error_upd by lia.
    destruct (Nat.leb_spec (S d) j), (Nat.ltb_spec j (S d + cnt)), (Nat.leb_spec d j), (Nat.ltb_spec j (d + S cnt)); cbn [andb]; try lia.
    + destruct (Nat.eqb_spec d (n - 1 - j)); [|reflexivity]. replace (n - 1 - j) with d by lia.
      assert (n - d - 1 = j) by lia. assert (j = d) by lia. lia.
    + destruct (Nat.eqb_spec d j); [lia|reflexivity].
    + destruct (Nat.eqb_spec d j); [|lia]. subst j. rewrite <- E. f_equal. lia.
    + destruct (Nat.eqb_spec d j); [lia|reflexivity].
Qed.
(** sample i of the filled window *)
Lemma symmetric_filler_spec (w : list T) f : exists r, symmetric_filler w f = Ok r /\ length r = length w /\
  forall i, i < length w -> nth_error r i = Some (f (Nat.max i (length w - 1 - i))).
Proof.
  unfold symmetric_filler. set (n := length w). set (h := n / 2).
  pose proof (Nat.div_mod n 2 ltac:(lia)) as D. pose proof (Nat.mod_upper_bound n 2 ltac:(lia)) as B. fold h in D.
  set (w1 := firstn h w ++ _).
  assert (L1 : length w1 = n) by (unfold w1; rewrite app_length, firstn_length, transform1_map, map_length, seq_length; fold n; lia).
  destruct (reverse_copy_spec n (n - h) w1 0 L1) as (r & E & L & N); try lia.
  rewrite Nat.sub_0_r in E. exists r. split; [exact E|]. split; [exact L|]. intros i Hi. rewrite N.
  assert (U : forall j, h <= j -> j < n -> nth_error w1 j = Some (f j)).
  { intros j H1 H2. unfold w1. rewrite nth_error_app2; rewrite firstn_length; fold n; [|lia].
    rewrite transform1_map, nth_error_map. rewrite nth_error_nth' with (d := 0) by (rewrite seq_length; lia).
    rewrite seq_nth by lia. cbn [option_map]. do 2 f_equal. lia. }
  cbn [Nat.leb andb]. rewrite Nat.add_0_l. destruct (Nat.ltb_spec i (n - h)).
  - rewrite U by lia. do 2 f_equal. lia.
  - rewrite U by lia. do 2 f_equal. lia.
Qed.
Lemma symmetric_filler_map (w : list T) f : symmetric_filler w f = Ok (map (fun i => f (Nat.max i (length w - 1 - i))) (seq 0 (length w))).
Proof.
  destruct (symmetric_filler_spec w f) as (r & E & L & N). rewrite E. f_equal.
  apply nth_error_ext. intros i. destruct (Nat.lt_ge_cases i (length w)).
  - rewrite N by assumption. rewrite nth_error_map. rewrite nth_error_nth' with (d := 0) by (now rewrite seq_length). rewrite seq_nth by assumption. reflexivity.
  - rewrite !(proj2 (nth_error_None _ _)); [reflexivity|rewrite map_length, seq_length; lia|lia].
Qed.
(** a filler of the form "f applied to max(i, n-1-i)" *)
Definition filler_form (F : list T -> outcome (list T)) : Prop :=
  forall n, exists g, forall w, length w = n -> F w = Ok (map (fun i => g (Nat.max i (n - 1 - i))) (seq 0 n)).
Lemma form_intro (F : list T -> outcome (list T)) : (forall n, exists g, forall w, length w = n -> F w = symmetric_filler w g) -> filler_form F.
Proof. intros H n. destruct (H n) as [g G]. exists g. intros w Hw. rewrite G by exact Hw. rewrite symmetric_filler_map, Hw. reflexivity. Qed.
Lemma sym_map_symmetric (g : nat -> T) n w : w = map (fun i => g (Nat.max i (n - 1 - i))) (seq 0 n) ->
  length w = n /\ forall i, i < n -> nth_error w i = nth_error w (n - 1 - i).
Proof.
  intros ->. rewrite map_length, seq_length. split; [reflexivity|]. intros i Hi. rewrite !nth_error_map.
  rewrite !nth_error_nth' with (d := 0) by (rewrite seq_length; lia). rewrite !seq_nth by lia. cbn [option_map]. do 2 f_equal. lia.
Qed.
End Filler.

Section Families.
Context {T : Type} (o : wops T).
Lemma bartlett_form : filler_form (bartlett_filler o).
Proof. apply form_intro. intros n. eexists. intros w Hw. unfold bartlett_filler. rewrite Hw. reflexivity. Qed.
Lemma general_cosine_form a : filler_form (general_cosine_filler o a).
Proof. apply form_intro. intros n. eexists. intros w Hw. unfold general_cosine_filler. rewrite Hw. reflexivity. Qed.
Lemma guard_form (F : list T -> outcome (list T)) : filler_form F -> filler_form (fun w => if length w =? 0 then Ok w else F w).
Proof.
  intros H n. destruct (H n) as [g G]. exists g. intros w Hw. destruct (Nat.eqb_spec (length w) 0) as [E|E]; [|now apply G].
  destruct w; [|discriminate]. simpl in Hw. subst n. reflexivity.
Qed.
Lemma cosine_form : filler_form (cosine_filler o).
Proof. apply guard_form, form_intro. intros n. eexists. intros w Hw. rewrite Hw. reflexivity. Qed.
Lemma bohman_form : filler_form (bohman_filler o).
Proof. apply guard_form, form_intro. intros n. eexists. intros w Hw. rewrite Hw. reflexivity. Qed.
Lemma gaussian_form s : filler_form (gaussian_filler o s).
Proof. apply form_intro. intros n. eexists. intros w Hw. unfold gaussian_filler. rewrite Hw. reflexivity. Qed.
Lemma general_gaussian_form p s : filler_form (general_gaussian_filler o p s).
Proof. apply form_intro. intros n. eexists. intros w Hw. unfold general_gaussian_filler. rewrite Hw. reflexivity. Qed.
Lemma parzen_form : filler_form (parzen_filler o).
Proof. apply form_intro. intros n. eexists. intros w Hw. unfold parzen_filler. rewrite Hw. reflexivity. Qed.
Lemma lanczos_form : filler_form (lanczos_filler o).
Proof. apply form_intro. intros n. eexists. intros w Hw. unfold lanczos_filler. rewrite Hw. reflexivity. Qed.
Lemma tukey_form al : filler_form (tukey_filler o al).
Proof. apply form_intro. intros n. eexists. intros w Hw. unfold tukey_filler. rewrite Hw. reflexivity. Qed.
Lemma kaiser_form be : w_le o (w_of o 0) be = true -> filler_form (kaiser_filler o be).
Proof. intros H. apply form_intro. intros n. eexists. intros w Hw. unfold kaiser_filler, require. rewrite H, Hw. reflexivity. Qed.

Definition good (z : T) (W : symmetry -> nat -> outcome (list T)) (M : nat) : Prop :=
  (exists w, W Symmetric M = Ok w /\ length w = M /\ forall i, i < M -> nth_error w i = nth_error w (M - 1 - i)) /\
  (exists w w', W Periodic M = Ok w /\ W Symmetric (S M) = Ok w' /\ w = firstn M w').
Lemma build_good F z M : filler_form F -> good z (fun s m => build_window z s m F) M.
Proof.
  intros H. split.
  - destruct (H M) as [g G]. cbn [build_window]. rewrite G by apply repeat_length. eexists. split; [reflexivity|]. eapply sym_map_symmetric. reflexivity.
  - destruct (H (S M)) as [g G]. cbn [build_window]. rewrite G by apply repeat_length. cbn [bind]. do 2 eexists. split; [reflexivity|]. split; reflexivity.
Qed.
Lemma nth_error_repeat_lt {A} (x : A) n i : i < n -> nth_error (repeat x n) i = Some x.
Proof. intros H. rewrite nth_error_nth' with (d := x) by (now rewrite repeat_length). now rewrite nth_repeat. Qed.
Lemma boxcar_good z M : good z (fun _ m => boxcar o m) M.
Proof.
  split.
  - eexists. split; [reflexivity|]. split; [apply repeat_length|]. intros i Hi. rewrite !nth_error_repeat_lt by lia. reflexivity.
  - do 2 eexists. split; [reflexivity|]. split; [reflexivity|]. clear. generalize (w_of o 1). intros x. induction M as [|M IH]; [reflexivity|]. cbn [repeat firstn]. f_equal. exact IH.
Qed.
(** every family except Tukey (with alpha >= 1) and Kaiser with an unordered (NaN) parameter *)
Definition plain (fam : family (T := T)) : Prop :=
  match fam with
  | Kaiser be => w_le o (w_of o 0) (w_abs o be) = true
  | Tukey al => w_le o al (w_of o 0) = true \/ w_le o (w_of o 1) al = false
  | _ => True
  end.
Lemma window_good fam M : plain fam -> good (w_of o 0) (window o fam) M.
Proof.
  destruct fam as [| | | | | | | | | | | | | |be| | |alpha]; cbn [plain]; intros P; try (apply boxcar_good);
    try (first [apply (build_good _ _ _ bartlett_form)|apply (build_good _ _ _ cosine_form)|apply (build_good _ _ _ bohman_form)|
      apply (build_good _ _ _ (general_cosine_form _))|apply (build_good _ _ _ (gaussian_form _))|apply (build_good _ _ _ (general_gaussian_form _ _))|
      apply (build_good _ _ _ (kaiser_form _ P))|apply (build_good _ _ _ parzen_form)|apply (build_good _ _ _ lanczos_form)]).
  cbn [window]. unfold good. cbn [window]. destruct (w_le o alpha (w_of o 0)) eqn:E0; [apply boxcar_good with (z := w_of o 0)|].
  destruct P as [P|P]; [discriminate|]. rewrite P. apply (build_good _ (w_of o 0) M (tukey_form alpha)).
Qed.
Lemma window_symmetric fam M : (forall be, fam = Kaiser be -> w_le o (w_of o 0) (w_abs o be) = true) ->
  exists w, window o fam Symmetric M = Ok w /\ length w = M /\ forall i, i < M -> nth_error w i = nth_error w (M - 1 - i).
Proof.
  intros H. pose proof (fun P => proj1 (window_good fam M P)) as G. destruct fam as [| | | | | | | | | | | | | |be| | |alpha]; try (exact (G I)).
  - exact (G (H _ eq_refl)).
  - clear G. cbn [window]. destruct (w_le o alpha (w_of o 0)) eqn:E0; [apply (proj1 (boxcar_good (w_of o 0) M))|].
    destruct (w_le o (w_of o 1) alpha) eqn:E1; [apply (proj1 (window_good Hann M I))|].
    apply (proj1 (build_good _ (w_of o 0) M (tukey_form alpha))).
Qed.
End Families.
