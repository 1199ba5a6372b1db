(** Properties C17-C22 (scicpp/core/range.hpp, manips.hpp, utils.hpp). *)
From Coq Require Import ZArith Floats.
From Verif Require Import Base Functional BaseQc Spec RangeManips RangeFacts.
Open Scope nat_scope.

(** C17: exact (rational) arithmetic. [qlinspace] is the model of linspace instantiated with the rationals. *)
Theorem C17_linspace : forall (start stop : Qc) (n : nat),
  length (qlinspace start stop n) = n /\
  (n = 1 -> qlinspace start stop n = [start]) /\
  (2 <= n ->
    nth_error (qlinspace start stop n) 0 = Some start /\
    nth_error (qlinspace start stop n) (n - 1) = Some stop /\
    (forall i, i < n -> nth_error (qlinspace start stop n) i = Some (start + qn i * ((stop - start) / qn (n - 1)))%Qc) /\
    (forall i x y, nth_error (qlinspace start stop n) i = Some x -> nth_error (qlinspace start stop n) (S i) = Some y ->
        (y - x = (stop - start) / qn (n - 1))%Qc /\ ((start < stop)%Qc -> (x < y)%Qc))).
Proof. exact linspace_points. Qed.
Print Assumptions C17_linspace.

(** For an integer element type the step is an integer quotient, and the last point is not stop. *)
Theorem C17_linspace_int_refuted :
  exists start stop n, 2 <= n /\
    nth_error (linspace Z.add Z.sub Z.mul Z.quot Z.of_nat start stop n) (n - 1) <> Some stop.
Proof. exact linspace_int_misses_stop. Qed.
Print Assumptions C17_linspace_int_refuted.

(** C18: false in binary64: linspace(0., 1., 50) ends with 1 - 2^-53. *)
Theorem C18_linspace_binary64_refuted :
  exists start stop n x, 2 <= n /\ nth_error (linspace_f64 start stop n) (n - 1) = Some x /\ PrimFloat.eqb x stop = false.
Proof. exact linspace_f64_misses_stop. Qed.
Print Assumptions C18_linspace_binary64_refuted.

(** C19: every returned value is a point of the walk, in order; nothing is returned for a wrong direction. *)
Theorem C19_arange_sound_partial : forall (start stop step : Qc), step <> 0%Qc ->
  exists r, arange start stop step = Ok r /\ Forall (in_walk start stop step) r /\
    (forall i x, nth_error r i = Some x -> x = (start + qn i * step)%Qc).
Proof. exact arange_elements. Qed.
Print Assumptions C19_arange_sound_partial.

(** ... at most one point is missing (the last one) ... *)
Theorem C19_arange_complete_up_to_last_partial : forall (start stop step : Qc) r, step <> 0%Qc ->
  arange start stop step = Ok r ->
  forall i, in_walk start stop step (start + qn i * step)%Qc -> i <= length r.
Proof. exact arange_missing. Qed.
Print Assumptions C19_arange_complete_up_to_last_partial.

(** ... and none when stop is a whole number of steps away. *)
Theorem C19_arange_whole_steps_partial : forall (start step : Qc) (n : nat), step <> 0%Qc ->
  arange start (start + qn n * step)%Qc step = Ok (map (fun i => (start + qn i * step)%Qc) (seq 0 n)) /\
  (forall i, in_walk start (start + qn n * step)%Qc step (start + qn i * step)%Qc <-> i < n).
Proof. exact arange_whole. Qed.
Print Assumptions C19_arange_whole_steps_partial.

(** The missing last point does happen (arange(0, 1, 0.3) stops at 0.6; arange(0, 10, 3) at 6), and step = 0 is UB. *)
Theorem C19_arange_missing_last_refuted :
  exists start stop step i r, arange start stop step = Ok r /\ in_walk start stop step (start + qn i * step)%Qc /\
    ~ In (start + qn i * step)%Qc r.
Proof. exact arange_misses. Qed.
Print Assumptions C19_arange_missing_last_refuted.
(** arange<int>: start, start + step, ... without stop, the number of values being the whole number of steps in the interval (so that none is missing when
    step divides stop - start, and the last one is missing otherwise); empty when step points away from stop; step 0 divides by zero. *)
Theorem C19_arange_int_partial : forall (start stop step : Z),
  (step = 0%Z -> arange_int start stop step = UB) /\
  (forall n, (0 <= n)%Z -> step <> 0%Z -> (Z.abs (stop - start - n * step) < Z.abs step)%Z -> ((stop - start - n * step) * step >= 0)%Z ->
     arange_int start stop step = Ok (map (fun i => (start + Z.of_nat i * step)%Z) (seq 0 (Z.to_nat n)))) /\
  ((0 < step /\ stop < start)%Z \/ (step < 0 /\ start < stop)%Z -> arange_int start stop step = Ok []).
Proof. exact arange_int_spec. Qed.
Print Assumptions C19_arange_int_partial.
Theorem C19_arange_int_missing_last_refuted :
  exists start stop step r, arange_int start stop step = Ok r /\ (0 < step)%Z /\
    exists i, (start <= start + i * step < stop)%Z /\ ~ In (start + i * step)%Z r.
Proof. exact arange_int_misses. Qed.
Print Assumptions C19_arange_int_missing_last_refuted.
Theorem C19_arange_zero_step_refuted : forall start stop, arange start stop 0%Qc = UB.
Proof. exact arange_zero_step. Qed.
Print Assumptions C19_arange_zero_step_refuted.

(** C20 *)
Theorem C20_full_zeros_ones : forall (T : Type) (n : nat) (v zero one : T) (i : nat),
  nth_error (full n v) i = (if i <? n then Some v else None) /\
  nth_error (zeros zero n) i = (if i <? n then Some zero else None) /\
  nth_error (ones one n) i = (if i <? n then Some one else None).
Proof. intros. unfold zeros, ones. rewrite !full_spec. auto. Qed.
Print Assumptions C20_full_zeros_ones.

(** [pow] is std::pow: any function *)
Theorem C20_logspace : forall (pow : Qc -> Qc -> Qc) (start stop base : Qc) (n : nat),
  length (qlogspace pow start stop n base) = n /\
  (n = 1 -> qlogspace pow start stop n base = [pow base start]) /\
  (2 <= n -> forall i, i < n ->
     nth_error (qlogspace pow start stop n base) i = Some (pow base (start + qn i * ((stop - start) / qn (n - 1))))%Qc).
Proof. exact logspace_points. Qed.
Print Assumptions C20_logspace.

(** C21: equal element types: every overload gives a ++ b, and the variadic form flattens. *)
Theorem C21_concatenate : forall (T : Type) (zero : T) (a b : list T) (rest : list (list T)),
  concatenate_cc (fun x => x) a b = a ++ b /\
  concatenate_rv1 true false true zero (fun x => x) a b = a ++ b /\
  concatenate_rv2 true false true (fun x => x) a b = a ++ b /\
  concatenate_fold a rest = concat (a :: rest).
Proof.
  intros T zero a b rest. destruct (concatenate_same T zero a b) as (H1 & H2 & H3).
  exact (conj H1 (conj H2 (conj H3 (concatenate_fold_concat T rest a)))).
Qed.
Print Assumptions C21_concatenate.

(** different element types, provided the accumulator's type is convertible to the other array's, or both are quantities *)
Theorem C21_concatenate_mixed_partial : forall (T U : Type) (zero : T) (conv : U -> T) (a : list T) (u : list U),
  concatenate_cc conv a u = a ++ map conv u /\
  concatenate_rv1 false false true zero conv a u = a ++ map conv u /\
  concatenate_rv1 false true false zero conv a u = a ++ map conv u /\
  concatenate_rv2 false false true conv u a = map conv u ++ a /\
  concatenate_rv2 false true false conv u a = map conv u ++ a.
Proof. exact concatenate_conv. Qed.
Print Assumptions C21_concatenate_mixed_partial.

(** std::vector<std::complex<double>>&& followed by std::vector<double>: double converts to complex but complex does not convert
    to double, the only direction tested: zeros (resp. nothing) instead of the data. *)
Theorem C21_concatenate_rvalue_mixed_refuted :
  (forall (T U : Type) (zero : T) (conv : U -> T) (a : list T) (u : list U),
    concatenate_rv1 false false false zero conv a u = a ++ repeat zero (length u) /\ concatenate_rv2 false false false conv u a = a) /\
  exists (a : list (Z * Z)) (u : list Z) (conv : Z -> Z * Z),
    concatenate_rv1 false false false (0, 0)%Z conv a u <> a ++ map conv u /\
    concatenate_rv2 false false false conv u a <> map conv u ++ a.
Proof. split; [intros; split; reflexivity|]. exists [(1, 2)]%Z, [3]%Z, (fun x => (x, 0%Z)). split; vm_compute; discriminate. Qed.
Print Assumptions C21_concatenate_rvalue_mixed_refuted.

Theorem C21_flip : forall (T : Type) (vc : valcat) (a : list T),
  length (fst (flip vc a)) = length a /\
  (forall i, i < length a -> nth_error (fst (flip vc a)) i = nth_error a (length a - 1 - i)) /\
  (forall vc', fst (flip vc' (fst (flip vc a))) = a) /\
  (forall b, fst (flip vc (a ++ b)) = fst (flip vc b) ++ fst (flip vc a)).
Proof. exact flip_spec. Qed.
Print Assumptions C21_flip.

(** The argument survives only when it is const: flip of a named non-const array reverses it in place. *)
Theorem C21_flip_argument_refuted :
  (forall (T : Type) (a : list T), snd (flip ConstLvalue a) = a) /\
  (exists a : list nat, snd (flip Lvalue a) <> a).
Proof. exact flip_argument. Qed.
Print Assumptions C21_flip_argument_refuted.

(** C22: exactly when subvector is defined, and what it returns then. *)
Theorem C22_subvector_partial : forall (T : Type) (v : list T) (len offset : Z),
  let n := Z.min len (Z.of_nat (length v)) in
  (0 <= offset -> 0 <= len -> offset + n <= Z.of_nat (length v) ->
    exists r, subvector v len offset = Ok r /\ Z.of_nat (length r) = n /\
      forall i, (0 <= i < n)%Z -> nth_error r (Z.to_nat i) = nth_error v (Z.to_nat (offset + i)))%Z /\
  (~ (0 <= offset /\ 0 <= len /\ offset + n <= Z.of_nat (length v))%Z -> subvector v len offset = UB).
Proof. exact subvector_spec. Qed.
Print Assumptions C22_subvector_partial.

(** The length is clamped to the size but not to the room left after the offset. *)
Theorem C22_subvector_overrun_refuted :
  exists (v : list nat) (len offset : Z), (0 <= offset < Z.of_nat (length v))%Z /\ (0 <= len)%Z /\ subvector v len offset = UB.
Proof. exists [1; 2; 3], 3%Z, 1%Z. repeat split; vm_compute; congruence. Qed.
Print Assumptions C22_subvector_overrun_refuted.

Example C17_C22_nonvacuous :
  map (fun x => this x) (qlinspace (qz 1) (qz 2) 3) = [1; 3 # 2; 2]%Q /\
  arange_int 3 (-3) (-2) = Ok [3; 1; -1]%Z /\
  (exists r, arange (qz 3) (qz (-3)) (qz (-2)) = Ok r /\ map (fun x => this x) r = [3; 1; -1]%Q) /\
  concatenate_fold [1] [[2; 3]; []; [4]] = [1; 2; 3; 4] /\
  fst (flip Lvalue [1; 2; 3]) = [3; 2; 1] /\
  subvector [1; 2; 3; 4] 2 1 = Ok [2; 3].
Proof. repeat split; try (vm_compute; reflexivity). eexists. split; [reflexivity|]. vm_compute. reflexivity. Qed.
