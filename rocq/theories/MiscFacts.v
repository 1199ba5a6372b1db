(** Facts about Misc.v *)
From Coq Require Import ZArith Reals List.
From Verif Require Import Base Functional PolyFit PolyFitFacts Misc.
From Coq Require Import Lra Psatz.
Open Scope nat_scope.
Set Implicit Arguments.

Lemma nth_error_ext' (T : Type) (a : list T) : forall b, (forall i, nth_error a i = nth_error b i) -> a = b.
Proof.
  induction a as [|x a IH]; intros [|y b] H; [reflexivity|discriminate (H 0)|discriminate (H 0)|].
  assert (E := H 0). cbn in E. injection E as ->. f_equal. apply IH. intros i. exact (H (S i)).
Qed.
Lemma nth_error_firstn_lt (A : Type) (v : list A) : forall n i, i < n -> nth_error (firstn n v) i = nth_error v i.
Proof. induction v as [|x v IH]; intros [|n] [|i] H; try reflexivity; try lia. cbn. apply IH. lia. Qed.
(** ** random numbers *)
Section Random.
Variables T E D : Type.
Variable seed_engine : N -> E.
Variable draw : D -> E -> T * (D * E).
(** the state of distribution and engine after n draws, and the value of the draw number n *)
Fixpoint after (n : nat) (s : D * E) : D * E := match n with O => s | S m => after m (snd (draw (fst s) (snd s))) end.
Definition draw_number (n : nat) (s : D * E) : T := let st := after n s in fst (draw (fst st) (snd st)).
Lemma filler_spec a : forall s, length (filler_loop draw a s) = length a /\
  forall i, i < length a -> nth_error (filler_loop draw a s) i = Some (draw_number i s).
Proof.
  induction a as [|x a IH]; intros s; [split; [reflexivity|intros i Hi; cbn in Hi; lia]|]. cbn [filler_loop].
  destruct (draw (fst s) (snd s)) as [v s'] eqn:Ed. destruct (IH s') as [L H]. cbn [length]. split; [now rewrite L|].
  intros [|i] Hi; cbn [nth_error]; [unfold draw_number; cbn [after]; now rewrite Ed|]. rewrite H by lia. unfold draw_number. cbn [after]. now rewrite Ed.
Qed.
Lemma rand_spec zero dist seed n : length (rand_vector seed_engine draw zero dist seed n) = n /\
  forall i, i < n -> nth_error (rand_vector seed_engine draw zero dist seed n) i = Some (draw_number i (dist, seed_engine seed)).
Proof.
  unfold rand_vector, random_number_filler. destruct (filler_spec (repeat zero n) (dist, seed_engine seed)) as [L H]. rewrite repeat_length in *. now split.
Qed.
End Random.

(** ** tuples *)
Section Tuple.
Variable ty : Type.
Variable ty_dec : forall a b : ty, {a = b} + {a <> b}.
Variable sem : ty -> Type.
Variable void : ty.
(** every array of the tuple has n elements *)
Fixpoint all_length (ts : list ty) (n : nat) : arrays sem ts -> Prop :=
  match ts with [] => fun _ => True | t :: r => fun c => length (fst c) = n /\ @all_length r n (snd c) end.
(** the array of n tuples whose fields are the given arrays *)
Fixpoint pack (ts : list ty) (n : nat) : arrays sem ts -> list (tuple sem ts) :=
  match ts with [] => fun _ => repeat tt n | t :: r => fun c => combine (fst c) (@pack r n (snd c)) end.
Lemma all_some_map A B (f : A -> B) l : all_some (map (fun x => Some (f x)) l) = Some (map f l).
Proof. induction l as [|x l IH]; [reflexivity|]. cbn [map all_some]. now rewrite IH. Qed.
Lemma all_some_spec A (l : list (option A)) : (forall x, In x l -> x <> None) -> exists c, all_some l = Some c /\ length c = length l /\
  forall j x, nth_error l j = Some x -> nth_error c j = x.
Proof.
  induction l as [|x l IH]; intros H; [exists []; repeat split; intros [|j] y Hy; discriminate|]. destruct x as [x|]; [|exfalso; apply (H None); [now left|reflexivity]].
  destruct IH as [c [E [L N]]]; [intros y Hy; apply H; now right|]. cbn [all_some]. rewrite E. exists (x :: c). split; [reflexivity|]. split; [cbn; now rewrite L|].
  intros [|j] y Hy; cbn in *; [now injection Hy|now apply N].
Qed.
Lemma get_some ts : forall i (x : tuple sem ts), i < length ts -> get void ts i x <> None.
Proof. induction ts as [|t ts IH]; intros i x H; [cbn in H; lia|]. destruct i; cbn; [discriminate|]. apply IH. cbn in H. lia. Qed.
Lemma get_none ts : forall i (x : tuple sem ts), length ts <= i -> get void ts i x = None.
Proof. induction ts as [|t ts IH]; intros i x H; [reflexivity|]. destruct i; cbn in *; [lia|]. apply IH. lia. Qed.
Lemma get_field_spec ts i (a : list (tuple sem ts)) : i < length ts ->
  exists c, get_field void i a = Some c /\ length c = length a /\ forall j x, nth_error a j = Some x -> nth_error c j = get void ts i x.
Proof.
  intros H. unfold get_field. apply Nat.ltb_lt in H as Hb. rewrite Hb. destruct (all_some_spec (map (get void ts i) a)) as [c [E [L N]]].
  - intros o Ho. apply in_map_iff in Ho. destruct Ho as [x [<- _]]. now apply get_some.
  - exists c. split; [exact E|]. rewrite map_length in L. split; [exact L|]. intros j x Hj. apply N. now rewrite nth_error_map, Hj.
Qed.
Lemma get_field_0 t ts (a : list (tuple sem (t :: ts))) : get_field void 0 a = Some (map fst a).
Proof. unfold get_field. cbn [length Nat.ltb Nat.leb]. exact (all_some_map fst a). Qed.
Lemma get_field_S t ts i (a : list (tuple sem (t :: ts))) : get_field void (S i) a = get_field void (ts := ts) i (map snd a).
Proof. unfold get_field. cbn [length]. change (S i <? S (length ts)) with (i <? length ts). rewrite map_map. reflexivity. Qed.
Lemma make_arrays_ext ts : forall (f g : forall i, option (list (sem (nth i ts void)))), (forall i, f i = g i) -> make_arrays (ts := ts) f = make_arrays g.
Proof. induction ts as [|t ts IH]; intros f g H; [reflexivity|]. cbn [make_arrays]. rewrite (H 0). rewrite (IH (fun i => f (S i)) (fun i => g (S i))) by (intros i; exact (H (S i))). reflexivity. Qed.
Lemma unpack_cons t ts (a : list (tuple sem (t :: ts))) : unpack void a = match unpack void (ts := ts) (map snd a) with Some u => Some (map fst a, u) | None => None end.
Proof.
  unfold unpack at 1. cbn [make_arrays]. rewrite get_field_0. rewrite (@make_arrays_ext ts _ _ (fun i => get_field_S i a)). reflexivity.
Qed.
Lemma combine_fst_snd A B (a : list (A * B)) : combine (map fst a) (map snd a) = a.
Proof. induction a as [|[x y] a IH]; [reflexivity|]. cbn. now rewrite IH. Qed.
Lemma map_fst_combine A B (a : list A) : forall b : list B, length a = length b -> map fst (combine a b) = a /\ map snd (combine a b) = b.
Proof. induction a as [|x a IH]; intros [|y b] H; try discriminate; [now split|]. cbn. destruct (IH b) as [-> ->]; [cbn in H; lia|]. now split. Qed.
Lemma pack_length ts n : forall c : arrays sem ts, all_length ts n c -> length (pack ts n c) = n.
Proof.
  induction ts as [|t ts IH]; intros c H; cbn [pack]; [apply repeat_length|]. destruct H as [H1 H2]. etransitivity; [apply combine_length|]. rewrite IH by exact H2. lia.
Qed.
Lemma unpack_pack ts n : forall c : arrays sem ts, all_length ts n c -> unpack void (pack ts n c) = Some c.
Proof.
  induction ts as [|t ts IH]; intros c H; [destruct c; reflexivity|]. rewrite unpack_cons. destruct H as [H1 H2].
  destruct (@map_fst_combine _ _ (fst c) (pack ts n (snd c))) as [E1 E2]; [now rewrite pack_length|].
  change (map snd (pack (t :: ts) n c)) with (map snd (combine (fst c) (pack ts n (snd c)))).
  change (map fst (pack (t :: ts) n c)) with (map fst (combine (fst c) (pack ts n (snd c)))).
  rewrite E1, E2, IH by exact H2. destruct c; reflexivity.
Qed.
Lemma unpack_spec ts : forall a : list (tuple sem ts), exists c, unpack void a = Some c /\ all_length ts (length a) c /\ pack ts (length a) c = a.
Proof.
  induction ts as [|t ts IH]; intros a.
  - exists tt. split; [reflexivity|]. split; [exact I|]. cbn [pack]. induction a as [|[] a IHa]; [reflexivity|]. exact (f_equal (cons tt) IHa).
  - rewrite unpack_cons. destruct (IH (map snd a)) as [u [-> [L P]]]. rewrite map_length in L, P. exists (map fst a, u). split; [reflexivity|].
    split; [split; [apply map_length|exact L]|]. change (combine (map fst a) (pack ts (length a) u) = a). etransitivity; [apply (f_equal (combine (map fst a))); exact P|]. apply combine_fst_snd.
Qed.
Notation is t := (fun v => if ty_dec v t then true else false).
Lemma count_none t ts : existsb (is t) ts = false <-> length (List.filter (is t) ts) = 0.
Proof.
  induction ts as [|u ts IH]; [now split|]. cbn [existsb List.filter]. destruct (ty_dec u t); cbn [orb length]; [split; intros; lia || discriminate|exact IH].
Qed.
Lemma get_type_spec t ts : length (List.filter (is t) ts) = 1 -> exists i, i < length ts /\ nth i ts void = t /\
  forall x : tuple sem ts, exists v w, get_type ty_dec t ts x = Some v /\ get void ts i x = Some w /\ existT sem (nth i ts void) w = existT sem t v.
Proof.
  induction ts as [|u ts IH]; [discriminate|]. cbn [List.filter get_type]. destruct (ty_dec u t) as [e|e].
  - cbn [length]. intros H. injection H as H. apply count_none in H. exists 0. split; [lia|]. split; [exact e|]. intros x. rewrite H.
    destruct e. exists (fst x), (fst x). repeat split.
  - intros H. destruct (IH H) as [i [Hi [E G]]]. exists (S i). cbn [length nth]. split; [lia|]. split; [exact E|]. intros x. apply G.
Qed.
Lemma get_field_type_spec t ts (a : list (tuple sem ts)) : length (List.filter (is t) ts) = 1 -> exists i c d,
  nth_error ts i = Some t /\ get_field_type ty_dec t a = Some c /\ get_field void i a = Some d /\ existT (fun u => list (sem u)) (nth i ts void) d = existT (fun u => list (sem u)) t c.
Proof.
  intros H. destruct (@get_type_spec t ts H) as [i [Hi [E G]]]. apply Nat.ltb_lt in Hi as Hb.
  assert (S1 : exists c d, all_some (map (get_type ty_dec t ts) a) = Some c /\ all_some (map (get void ts i) a) = Some d /\
     existT (fun u => list (sem u)) (nth i ts void) d = existT (fun u => list (sem u)) t c).
  { induction a as [|x a [c [d [Ec [Ed Ex]]]]].
    - exists [], []. repeat split. now destruct E.
    - destruct (G x) as [v [w [Ev [Ew Evw]]]]. cbn [map all_some]. rewrite Ev, Ew, Ec, Ed. exists (v :: c), (w :: d). split; [reflexivity|]. split; [reflexivity|].
      clear - Evw Ex ty_dec. revert w d Evw Ex. generalize (nth i ts void). intros u w d Evw Ex. pose proof (projT1_eq Evw) as e. cbn in e. subst u.
      apply (Eqdep_dec.inj_pair2_eq_dec ty ty_dec) in Evw. apply (Eqdep_dec.inj_pair2_eq_dec ty ty_dec) in Ex. now subst. }
  destruct S1 as [c [d [Ec [Ed Ex]]]]. exists i, c, d. split; [rewrite <- E; now apply nth_error_nth'|]. unfold get_field_type, get_field. rewrite H, Hb. cbn [Nat.eqb]. now repeat split.
Qed.
End Tuple.
Arguments all_length {ty sem} ts n _.
Arguments pack {ty sem} ts n _.

(** ** remainders *)
Lemma rtrunc_spec r : exists f, (r = IZR (rtrunc r) + f /\ Rabs f < 1 /\ 0 <= r * f /\ 0 <= r * IZR (rtrunc r))%R.
Proof.
  assert (IP : forall r, (0 <= r -> IZR (Int_part r) <= r < IZR (Int_part r) + 1 /\ 0 <= IZR (Int_part r))%R).
  { clear. intros r H. destruct (base_Int_part r) as [H1 H2]. split; [lra|]. assert (-1 < Int_part r)%Z; [apply lt_IZR; lra|]. apply IZR_le. lia. }
  unfold rtrunc. destruct (Rle_dec 0 r) as [H|H].
  - specialize (IP r H). exists (r - IZR (Int_part r))%R. split; [ring|]. split; [rewrite Rabs_right; lra|]. split; apply Rmult_le_pos; lra.
  - specialize (IP (- r)%R ltac:(lra)). rewrite opp_IZR. exists (r + IZR (Int_part (- r)))%R. split; [ring|]. split; [rewrite Rabs_left1; lra|].
    split; [|nra]. replace (r * (r + IZR (Int_part (- r))))%R with ((- r) * (- r - IZR (Int_part (- r))))%R by ring. apply Rmult_le_pos; lra.
Qed.
Lemma fmod_spec x y : y <> 0%R -> exists r n, fmod x y = Some r /\ (x = IZR n * y + r /\ Rabs r < Rabs y /\ 0 <= x * r)%R.
Proof.
  intros H. unfold fmod. destruct (Req_EM_T y 0); [contradiction|]. destruct (rtrunc_spec (x / y)) as [f [E [Hf [Hs _]]]].
  exists (x - y * IZR (rtrunc (x / y)))%R, (rtrunc (x / y)). split; [reflexivity|]. split; [ring|].
  assert (R1 : (x - y * IZR (rtrunc (x / y)) = y * f)%R).
  { replace (IZR (rtrunc (x / y))) with (x / y - f)%R by lra. field. exact H. }
  rewrite R1. split.
  - rewrite Rabs_mult. assert (0 < Rabs y)%R by (now apply Rabs_pos_lt). nra.
  - replace (x * (y * f))%R with (y * y * (x / y * f))%R by (field; exact H). apply Rmult_le_pos; [apply Rle_0_sqr|exact Hs].
Qed.
Lemma fmod_unique x y r n : y <> 0%R -> (x = IZR n * y + r)%R -> (Rabs r < Rabs y)%R -> (0 <= x * r)%R -> fmod x y = Some r.
Proof.
  intros H E L S0. destruct (fmod_spec x H) as [r' [n' [-> [E' [L' S']]]]]. f_equal.
  (* r - r' is a multiple of y, and they have the sign of x *)
  assert (D : (r' - r = IZR (n - n') * y)%R) by (rewrite minus_IZR; lra).
  destruct (Req_dec x 0) as [X|X].
  - (* x = 0: multiples of y smaller than y *)
    assert (Z1 : forall q m, (0 = IZR m * y + q)%R -> (Rabs q < Rabs y)%R -> q = 0%R).
    { intros q m Eq Lq. assert (Q : q = (- IZR m * y)%R) by lra. rewrite Q, Rabs_mult, Rabs_Ropp, <- abs_IZR in Lq.
      assert (0 < Rabs y)%R by (now apply Rabs_pos_lt). assert (IZR (Z.abs m) < 1)%R by nra. apply lt_IZR in H1. assert (m = 0%Z) by lia. subst m. lra. }
    rewrite X in *. rewrite (Z1 r n E L), (Z1 r' n' E' L'). reflexivity.
  - assert (N : (n - n' = 0)%Z).
    { assert (A : (Rabs (r' - r) < Rabs y)%R).
      { destruct (Rdichotomy x 0 X) as [HX|HX].
        - assert (r <= 0)%R by nra. assert (r' <= 0)%R by nra. rewrite (Rabs_left1 r) in L by lra. rewrite (Rabs_left1 r') in L' by lra. apply Rabs_def1; lra.
        - assert (0 <= r)%R by nra. assert (0 <= r')%R by nra. rewrite (Rabs_right r) in L by lra. rewrite (Rabs_right r') in L' by lra. apply Rabs_def1; lra. }
      rewrite D, Rabs_mult, <- abs_IZR in A. assert (0 < Rabs y)%R by (now apply Rabs_pos_lt). assert (IZR (Z.abs (n - n')) < 1)%R by nra. apply lt_IZR in H1. lia. }
    rewrite N in D. lra.
Qed.
Lemma map_outcome_ok A B (f : A -> outcome B) (g : A -> B) a : (forall x, In x a -> f x = Ok (g x)) -> map_outcome f a = Ok (map g a).
Proof. induction a as [|x a IH]; intros H; [reflexivity|]. cbn [map_outcome map]. rewrite (H x (or_introl eq_refl)), IH by (intros; apply H; now right). reflexivity. Qed.
Lemma map_outcome_ub A B (f : A -> outcome B) a : (forall x, f x = UB \/ exists y, f x = Ok y) -> (exists x, In x a /\ f x = UB) -> map_outcome f a = UB.
Proof.
  intros C. induction a as [|x a IH]; intros [z [Hz Ez]]; [destruct Hz|]. cbn [map_outcome]. destruct (C x) as [-> | [y Ey]]; [reflexivity|].
  rewrite Ey. cbn [bind]. rewrite IH; [reflexivity|]. destruct Hz as [ <- |Hz]; [congruence|]. now exists z.
Qed.
