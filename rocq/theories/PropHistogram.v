(** Properties C31, C32, C33, C72 (scicpp/core/histogram.hpp).
    [edge b i] is the i-th element of [b]; [count p l] the number of elements of [l] satisfying [p];
    [increasing b]: e_i <= e_j for i <= j, no NaN among the edges; [uniform_edges b0 s n] = b0, b0+s, ..., b0+(n-1)s. *)
From Coq Require Import ZArith Permutation.
From Coq Require Import Floats.
From Verif Require Import Base Functional Spec Numeric BaseFl FlFacts Equal RangeManips RangeFacts Stats Histogram HistogramFacts HistogramFacts2.
Open Scope nat_scope.

(** C31 for every data array, NaN and infinities included: bins [e_i, e_{i+1}), last bin closed.  The restriction
    [no_near_miss]: no element within the tolerance of almost_equal ABOVE the last edge (see the refutations). *)
Theorem C31_histogram_counts_partial : forall xs b, increasing b -> 2 <= length b ->
  (forall x, In x xs -> almost_equal 1 x (edge b (length b - 1)) = true -> fle x (edge b (length b - 1)) = true) ->
  exists h, fhist false xs b = Ok h /\ length h = length b - 1 /\
    (forall i, S (S i) < length b -> nth_error h i = Some (count (fun x => fle (edge b i) x && flt x (edge b (S i))) xs)) /\
    nth_error h (length b - 2) =
      Some (count (fun x => fle (edge b (length b - 2)) x && fle x (edge b (length b - 1))) xs) /\
    list_sum h = count (fun x => fle (edge b 0) x && fle x (edge b (length b - 1))) xs.
Proof. exact histogram_counts. Qed.
Print Assumptions C31_histogram_counts_partial.
(** Unrestricted: what the last bin really counts. *)
Theorem C31_histogram_all_inputs : forall xs b, increasing b -> 2 <= length b ->
  exists h, fhist false xs b = Ok h /\ length h = length b - 1 /\
    forall i, S i < length b -> nth_error h i = Some (count (fun x =>
      fle (edge b i) x && flt x (edge b (S i)) ||
      (S (S i) =? length b) && (fle (edge b (S i)) x && almost_equal 1 x (edge b (S i)))) xs).
Proof. exact hist_general. Qed.
Print Assumptions C31_histogram_all_inputs.
Theorem C31_order_independent : forall xs ys b, increasing b -> Permutation xs ys -> fhist false xs b = fhist false ys b.
Proof. exact histogram_perm. Qed.
Print Assumptions C31_order_independent.
Theorem C31_few_edges : forall u xs b, length b <= 1 -> fhist u xs b = Ok [].
Proof. exact histogram_few_edges. Qed.
(** +infinity is counted in the last bin [0, 1]. *)
Theorem C31_infinity_refuted : exists xs b, increasing b /\ fhist false xs b = Ok [1] /\
  fle (nth 0 xs NaN) (edge b (length b - 1)) = false /\ xs = [PInf].
Proof. exact histogram_inf_counted. Qed.
Print Assumptions C31_infinity_refuted.
(** A finite value above the last edge is counted. *)
Theorem C31_above_last_refuted : exists x b, increasing b /\ fhist false [Fin x] b = Ok [1] /\
  flt (edge b (length b - 1)) (Fin x) = true.
Proof. exact histogram_above_last_counted. Qed.
Print Assumptions C31_above_last_refuted.
Example C31_nonvacuous : let b := [f0; f1; Fin (qz 3)] in
  increasing b /\ fhist false [Fin (qz 2); f0; Fin (qz 3); Fin (qz 7); NaN; Fin (qz (-1)); f1; NInf] b = Ok [1; 3].
Proof.
  split; [|vm_compute; reflexivity].
  intros i j Hij Hj. simpl in Hj. destruct i as [|[|[|i]]], j as [|[|[|j]]]; try lia; vm_compute; reflexivity.
Qed.

(** C32: exact arithmetic, every data array (NaN and infinities included). *)
Theorem C32_uniform_fast_path : forall xs b0 s n, (0 < s)%Qc -> 2 <= n ->
  fhist true xs (uniform_edges b0 s n) = fhist false xs (uniform_edges b0 s n) /\
  exists h, fhist true xs (uniform_edges b0 s n) = Ok h.
Proof.
  intros xs b0 s n Hs Hn. split; [now apply hist_uniform_general|].
  destruct (hist_uniform xs b0 s n Hs Hn) as [h [E _]]. now exists h.
Qed.
Print Assumptions C32_uniform_fast_path.
(** In binary64 the two paths disagree: a value equal to the third edge of linspace(0, 7, 6). *)
Theorem C32_uniform_binary64_refuted : exists xs b, b = linspace_f64 0 7 6 /\ hist_f64 true xs b <> hist_f64 false xs b /\
  exists h1 h2, hist_f64 true xs b = Ok h1 /\ hist_f64 false xs b = Ok h2.
Proof. exact hist_f64_disagree. Qed.
Print Assumptions C32_uniform_binary64_refuted.
Example C32_nonvacuous : fhist true [Fin (qz 2); f0; Fin (qz 4); Fin (qz 7); NaN; Fin (qz (-1)); f1; PInf] (uniform_edges 0 (qz 2) 3) = Ok [2; 3].
Proof. vm_compute. reflexivity. Qed.

(** C33: strictly increasing finite edges, at least one element counted, fewer than 2^31 of them. *)
Theorem C33_density_partial : forall u xs (e : list Qc) h,
  (forall i, S i < length e -> (nth i e 0 < nth (S i) e 0)%Qc) -> 2 <= length e ->
  fhist u xs (map Fin e) = Ok h -> 0 < list_sum h -> (Z.of_nat (list_sum h) < 2 ^ 31)%Z ->
  exists d : list Qc, fdens u xs (map Fin e) = Ok (map Fin d) /\ length d = length e - 1 /\
    (forall i, S i < length e ->
       nth i d 0%Qc = (qn (nth i h 0%nat) / (qn (list_sum h) * (nth (S i) e 0 - nth i e 0)))%Qc) /\
    qsum (map (fun i => nth i d 0 * (nth (S i) e 0 - nth i e 0))%Qc (seq 0 (length e - 1))) = 1%Qc.
Proof. exact density_integral. Qed.
Print Assumptions C33_density_partial.
(** The count is cast to int: from 2^31 counted elements the densities are negative. *)
Theorem C33_int_overflow_refuted : exists N, 1 <= N /\
  fdens false (repeat (Fin (Q2Qc (1 # 2))) N) [f0; f1] = Ok [Fin (qz (-1))].
Proof. exact density_int_overflow. Qed.
Print Assumptions C33_int_overflow_refuted.
(** A repeated edge (accepted by the sortedness check) gives 0/0. *)
Theorem C33_repeated_edge_refuted : exists xs b d, increasing b /\ fdens false xs b = Ok d /\ In NaN d /\ In f1 xs /\
  fhist false xs b = Ok [1; 0].
Proof. exact density_repeated_edge. Qed.
Print Assumptions C33_repeated_edge_refuted.
Example C33_nonvacuous : let e := [0; 1; qz 3]%Qc in fhist false [f0; f1; Fin (qz 2)] (map Fin e) = Ok [1; 2] /\
  omap (map (fun x => match x with Fin q => this q | _ => 0%Q end)) (fdens false [f0; f1; Fin (qz 2)] (map Fin e)) = Ok [1 # 3; 1 # 3]%Q.
Proof. split; vm_compute; reflexivity. Qed.

(** C72: exact arithmetic. *)
Theorem C72_histogram_n_counts_all_partial : forall (q : list Qc) nbins, q <> [] -> 1 <= nbins ->
  exists h, fhist_n (map Fin q) nbins = Ok h /\ length h = nbins /\ list_sum h = length q.
Proof. exact histogram_n_total. Qed.
Print Assumptions C72_histogram_n_counts_all_partial.
(** In binary64 histogram({-6, 9}, 11) drops the element 9. *)
Theorem C72_histogram_n_binary64_refuted : exists xs nbins h, hist_n_f64 xs nbins = Ok h /\ list_sum h < length xs /\
  xs = [(-6)%float; 9%float] /\ nbins = 11.
Proof. exact hist_n_f64_loses. Qed.
Print Assumptions C72_histogram_n_binary64_refuted.
Example C72_nonvacuous : fhist_n (map Fin [qz 1; qz 3; qz 2; qz 1]) 2 = Ok [2; 2].
Proof. vm_compute. reflexivity. Qed.
