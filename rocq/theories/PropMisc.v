(** C97-C99: random numbers, arrays of tuples, operator %. *)
From Coq Require Import ZArith Reals List.
From Flocq Require Core.
From Verif Require Import Base PolyFit Misc MiscFacts FmodExact.
From Coq Require Import Lra Psatz.
Open Scope nat_scope.
Set Implicit Arguments.

(** C97.  [draw_number i (d, e)]: the value of the i-th draw starting with the distribution state d and the engine state e. *)
Theorem C97_draws_partial : forall (T E D : Type) (seed_engine : N -> E) (draw : D -> E -> T * (D * E)) (zero : T) (dist : D) (seed : N) (n : nat),
  length (rand_vector seed_engine draw zero dist seed n) = n /\
  (forall i, i < n -> nth_error (rand_vector seed_engine draw zero dist seed n) i = Some (draw_number draw i (dist, seed_engine seed))) /\
  rand_array seed_engine draw zero dist seed n = rand_vector seed_engine draw zero dist seed n.
Proof. intros. destruct (rand_spec seed_engine draw zero dist seed n) as [L H]. repeat split; assumption. Qed.
Print Assumptions C97_draws_partial.
Theorem C97_prefix : forall (T E D : Type) (seed_engine : N -> E) (draw : D -> E -> T * (D * E)) (zero : T) (dist : D) (seed : N) (m n : nat), m <= n ->
  firstn m (rand_vector seed_engine draw zero dist seed n) = rand_vector seed_engine draw zero dist seed m.
Proof.
  intros T E D se draw zero dist seed m n H. destruct (rand_spec se draw zero dist seed n) as [Ln Hn]. destruct (rand_spec se draw zero dist seed m) as [Lm Hm].
  apply nth_error_ext'. intros i. destruct (Nat.lt_ge_cases i m) as [Hi|Hi].
  - rewrite Hm by exact Hi. rewrite nth_error_firstn_lt by exact Hi. apply Hn. lia.
  - transitivity (@None T); [|symmetry]; apply nth_error_None; [rewrite firstn_length|]; lia.
Qed.
Print Assumptions C97_prefix.
(** a distribution whose values are in [0,1) gives arrays in [0,1) *)
Theorem C97_range : forall (T E D : Type) (seed_engine : N -> E) (draw : D -> E -> T * (D * E)) (zero : T) (dist : D) (P : T -> Prop) (seed : N) (n : nat),
  (forall d e, P (fst (draw d e))) -> Forall P (rand_vector seed_engine draw zero dist seed n).
Proof.
  intros T E D se draw zero dist P seed n H. apply Forall_forall. intros x Hx. apply In_nth_error in Hx. destruct Hx as [i Hi].
  destruct (rand_spec se draw zero dist seed n) as [L G]. destruct (Nat.lt_ge_cases i n) as [Hn|Hn].
  - rewrite (G i Hn) in Hi. injection Hi as <-. apply H.
  - rewrite (proj2 (nth_error_None _ _)) in Hi by lia. discriminate.
Qed.
Print Assumptions C97_range.
Theorem C97_normal : forall (T E D : Type) (seed_engine : N -> E) (draw : D -> E -> T * (D * E)) (zero : T) (add mul : T -> T -> T) (dist : D) (mu sigma : T) (n : nat),
  length (normal seed_engine draw zero add mul dist mu sigma n) = n /\
  forall i, i < n -> nth_error (normal seed_engine draw zero add mul dist mu sigma n) i = Some (add mu (mul sigma (draw_number draw i (dist, seed_engine 5489%N)))).
Proof.
  change 5489%N with default_seed.
  intros T E D se draw zero add mul dist mu sigma n. destruct (rand_spec se draw zero dist default_seed n) as [L H]. unfold normal.
  split; [now rewrite !map_length|]. intros i Hi. now rewrite !nth_error_map, (H i Hi).
Qed.
Print Assumptions C97_normal.
(** FINDING: nothing is kept between calls: the scalar rand() and randn() return the same number at every call, the first draw of the default
    seed, and the numbers of two calls of normal are the same up to mu and sigma *)
Theorem C97_calls_refuted : forall (T E D : Type) (seed_engine : N -> E) (draw : D -> E -> T * (D * E)) (zero : T) (dist : D) (calls : nat),
  map (fun _ => rand_scalar seed_engine draw zero dist) (seq 0 calls) = repeat (fst (draw dist (seed_engine 5489%N))) calls.
Proof.
  change 5489%N with default_seed.
  intros. unfold rand_scalar, rand_array, random_number_filler. cbn [repeat filler_loop fst snd]. destruct (draw dist (seed_engine default_seed)) as [v s]. cbn [hd fst].
  generalize 0 as k. induction calls as [|c IH]; intros k; [reflexivity|]. cbn [seq map repeat]. now rewrite IH.
Qed.
Print Assumptions C97_calls_refuted.
Theorem C97_normal_correlated_refuted : forall (E D : Type) (seed_engine : N -> E) (draw : D -> E -> R * (D * E)) (dist : D) (mu1 s1 mu2 s2 : R) (n i : nat) (a b : R),
  nth_error (normal seed_engine draw 0%R Rplus Rmult dist mu1 s1 n) i = Some a -> nth_error (normal seed_engine draw 0%R Rplus Rmult dist mu2 s2 n) i = Some b ->
  ((a - mu1) * s2 = (b - mu2) * s1)%R.
Proof.
  intros E D se draw dist mu1 s1 mu2 s2 n i a b Ha Hb. destruct (Nat.lt_ge_cases i n) as [Hi|Hi].
  - rewrite (proj2 (C97_normal se draw 0%R Rplus Rmult dist mu1 s1 n) i Hi) in Ha. rewrite (proj2 (C97_normal se draw 0%R Rplus Rmult dist mu2 s2 n) i Hi) in Hb.
    injection Ha as <-. injection Hb as <-. ring.
  - rewrite (proj2 (nth_error_None _ _)) in Ha; [discriminate|]. now rewrite (proj1 (C97_normal se draw 0%R Rplus Rmult dist mu1 s1 n)).
Qed.
Print Assumptions C97_normal_correlated_refuted.
(** an engine that counts, a distribution that multiplies by 3 *)
Example C97_nonvacuous : rand_vector (fun s => s) (fun (d : N) e => ((d * e)%N, (d, (e + 1)%N))) 0%N 3%N 5%N 4 = [15; 18; 21; 24]%N.
Proof. reflexivity. Qed.

(** C98.  [get void ts i x] is std::get<i>(x) (None: does not compile); [arrays ts] the tuples of arrays. *)
Theorem C98_get_field : forall (ty : Type) (sem : ty -> Type) (void : ty) (ts : list ty) (i : nat) (a : list (tuple sem ts)),
  (i < length ts -> exists c, get_field void i a = Some c /\ length c = length a /\ forall j x, nth_error a j = Some x -> nth_error c j = get void ts i x) /\
  (length ts <= i -> get_field void i a = None).
Proof.
  intros. split; [apply get_field_spec|]. intros H. unfold get_field. destruct (Nat.ltb_spec i (length ts)); [lia|reflexivity].
Qed.
Print Assumptions C98_get_field.
(** the field of type t is the field with the index of t in the tuple type, where t must occur exactly once *)
Theorem C98_get_field_type : forall (ty : Type) (ty_dec : forall a b : ty, {a = b} + {a <> b}) (sem : ty -> Type) (void t : ty) (ts : list ty) (a : list (tuple sem ts)),
  (count_occ ty_dec ts t = 1 -> exists i c d, nth_error ts i = Some t /\ get_field_type ty_dec t a = Some c /\ get_field void i a = Some d /\
     existT (fun u => list (sem u)) (nth i ts void) d = existT (fun u => list (sem u)) t c) /\
  (count_occ ty_dec ts t <> 1 -> get_field_type ty_dec t a = None).
Proof.
  intros ty ty_dec sem void t ts a.
  assert (C : length (List.filter (fun v => if ty_dec v t then true else false) ts) = count_occ ty_dec ts t).
  { clear. induction ts as [|u ts IH]; [reflexivity|]. cbn [List.filter count_occ]. destruct (ty_dec u t); cbn [length]; now rewrite IH. }
  split; intros H; rewrite <- C in H; [now apply get_field_type_spec|]. unfold get_field_type. apply Nat.eqb_neq in H. now rewrite H.
Qed.
Print Assumptions C98_get_field_type.
(** [pack ts n c]: the array of n tuples made of the arrays c, each of n elements ([all_length]) *)
Theorem C98_unpack : forall (ty : Type) (sem : ty -> Type) (void : ty) (ts : list ty),
  (forall a : list (tuple sem ts), exists c, unpack void a = Some c /\ all_length ts (length a) c /\ pack ts (length a) c = a) /\
  (forall n (c : arrays sem ts), all_length ts n c -> unpack void (pack ts n c) = Some c).
Proof. intros. split; [apply unpack_spec|]. intros n c. apply unpack_pack. Qed.
Print Assumptions C98_unpack.
Example C98_nonvacuous : let sem := fun b : bool => if b return Set then nat else Z in let a : list (tuple sem [true; false]) := [(1, (10%Z, tt)); (2, (20%Z, tt))] in
  unpack true a = Some ([1; 2], ([10%Z; 20%Z], tt)) /\ get_field_type Bool.bool_dec false a = Some [10%Z; 20%Z].
Proof. split; reflexivity. Qed.

(** C99. *)
Theorem C99_fmod : forall x y : R, (y = 0%R -> fmod x y = None) /\
  (y <> 0%R -> exists r, fmod x y = Some r /\ (exists n, x = IZR n * y + r /\ Rabs r < Rabs y /\ 0 <= x * r)%R /\
    forall r' n', (x = IZR n' * y + r')%R -> (Rabs r' < Rabs y)%R -> (0 <= x * r')%R -> r' = r).
Proof.
  intros x y. split; [intros ->; unfold fmod; destruct (Req_EM_T 0 0); [reflexivity|contradiction]|]. intros H. destruct (fmod_spec x H) as [r [n [E P]]].
  exists r. split; [exact E|]. split; [now exists n|]. intros r' n' E' L' S'. rewrite (fmod_unique n' H E' L' S') in E. now injection E.
Qed.
Print Assumptions C99_fmod.
(** no rounding: the remainder of two doubles is a double *)
Theorem C99_exact : let double := Flocq.Core.Generic_fmt.generic_format Flocq.Core.Zaux.radix2 (Flocq.Core.FLT.FLT_exp (-1074) 53) in
  forall x y r : R, double x -> double y -> fmod x y = Some r -> double r.
Proof. exact fmod_exact. Qed.
Print Assumptions C99_exact.
Theorem C99_arrays : forall (a : list R) (s : R), length (mod_scalar a s) = length a /\ length (scalar_mod s a) = length a /\
  forall i x, nth_error a i = Some x -> nth_error (mod_scalar a s) i = Some (fmod x s) /\ nth_error (scalar_mod s a) i = Some (fmod s x).
Proof. intros a s. unfold mod_scalar, scalar_mod. rewrite !map_length. repeat split; rewrite nth_error_map, H; reflexivity. Qed.
Print Assumptions C99_arrays.
(** integers of a type with smallest value mn (None: promoted to int): remainder in the sense of the truncated division *)
Theorem C99_integers_partial : forall (mn : option Z) (a : list Z) (s : Z), s <> 0%Z -> (forall m, mn = Some m -> s = (-1)%Z -> ~ In m a) ->
  exists r, mod_scalar_int mn a s = Ok r /\ length r = length a /\
    forall i x, nth_error a i = Some x -> exists q y, nth_error r i = Some y /\ (x = q * s + y /\ Z.abs y < Z.abs s /\ 0 <= x * y)%Z.
Proof.
  intros mn a s Hs Hm. exists (map (fun x => Z.rem x s) a). split.
  - apply map_outcome_ok. intros x Hx. unfold modulus_int. destruct (Z.eqb_spec s 0); [contradiction|]. destruct mn as [m|]; [|reflexivity].
    destruct (Z.eqb_spec x m) as [ -> |]; [|reflexivity]. destruct (Z.eqb_spec s (-1)) as [ -> |]; [|reflexivity]. exfalso. exact (Hm m eq_refl eq_refl Hx).
  - split; [apply map_length|]. intros i x Hi. exists (Z.quot x s), (Z.rem x s). split; [now rewrite nth_error_map, Hi|].
    split; [rewrite Z.mul_comm; now apply Z.quot_rem|]. split; [now apply Z.rem_bound_abs|]. rewrite Z.mul_comm. now apply Z.rem_sign_mul.
Qed.
Print Assumptions C99_integers_partial.
Theorem C99_scalar_integers_partial : forall (mn : option Z) (a : list Z) (s : Z), ~ In 0%Z a -> (mn = Some s -> ~ In (-1)%Z a) ->
  exists r, scalar_mod_int mn s a = Ok r /\ length r = length a /\
    forall i x, nth_error a i = Some x -> exists q y, nth_error r i = Some y /\ (s = q * x + y /\ Z.abs y < Z.abs x /\ 0 <= s * y)%Z.
Proof.
  intros mn a s Hs Hm. exists (map (fun x => Z.rem s x) a). split.
  - apply map_outcome_ok. intros x Hx. unfold modulus_int. destruct (Z.eqb_spec x 0) as [ -> |]; [contradiction|]. destruct mn as [m|]; [|reflexivity].
    destruct (Z.eqb_spec s m) as [ -> |]; [|reflexivity]. destruct (Z.eqb_spec x (-1)) as [ -> |]; [|reflexivity]. exfalso. exact (Hm eq_refl Hx).
  - split; [apply map_length|]. intros i x Hi. assert (x <> 0)%Z by (intros ->; apply Hs; eapply nth_error_In; exact Hi).
    exists (Z.quot s x), (Z.rem s x). split; [now rewrite nth_error_map, Hi|].
    split; [rewrite Z.mul_comm; now apply Z.quot_rem|]. split; [now apply Z.rem_bound_abs|]. rewrite Z.mul_comm. now apply Z.rem_sign_mul.
Qed.
Print Assumptions C99_scalar_integers_partial.
(** FINDING: a zero divisor, or the smallest int modulo -1, is undefined behaviour *)
Theorem C99_zero_refuted : forall (mn : option Z) (a : list Z), a <> [] -> mod_scalar_int mn a 0 = UB.
Proof. intros mn [|x a] H; [contradiction|]. reflexivity. Qed.
Print Assumptions C99_zero_refuted.
Theorem C99_min_refuted : forall (m : Z) (a : list Z), In m a -> mod_scalar_int (Some m) a (-1) = UB.
Proof.
  intros m a H. apply map_outcome_ub.
  - intros x. unfold modulus_int. destruct (-1 =? 0)%Z; [left; reflexivity|]. destruct ((x =? m)%Z && (-1 =? -1)%Z); [left; reflexivity|right; eexists; reflexivity].
  - exists m. split; [exact H|]. unfold modulus_int. rewrite (Z.eqb_refl m). reflexivity.
Qed.
Print Assumptions C99_min_refuted.
Example C99_nonvacuous : mod_scalar_int (Some (-2147483648)%Z) [7; -7; -2147483648]%Z 3 = Ok [1; -1; -2]%Z /\ scalar_mod_int None (-7) [3; -4]%Z = Ok [-1; -3]%Z.
Proof. split; reflexivity. Qed.
