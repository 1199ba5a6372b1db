(** Properties C44, C46, C47, C48, C49, C73 (scicpp/signal/fft.hpp, fftconvolve of scicpp/signal/convolve.hpp). *)
From Coq Require Import ZArith Znumtheory Reals Ring QArith Qcanon Permutation.
From Verif Require Import Base BaseQc Functional Spec SumLib CplxR Polynomial Convolve Fft FftFacts HammingFacts FftConv FftConvFacts.
From Coq Require Import Lra.
Open Scope nat_scope.

(** C44 *)
Theorem C44_fftconvolve_complex : forall a v : list cx, a <> [] \/ v <> [] -> fftconvolve_c a v = convolve x0 xadd xmul a v.
Proof. exact fftconvolve_c_ok. Qed.
Print Assumptions C44_fftconvolve_complex.
Theorem C44_fftconvolve_real : forall a v : list R, a <> [] \/ v <> [] -> fftconvolve_r a v = convolve 0%R Rplus Rmult a v.
Proof. exact fftconvolve_r_ok. Qed.
Print Assumptions C44_fftconvolve_real.
Example C44_nonvacuous : fftconvolve_r [1; 2]%R [3; 4]%R = Ok [3; 10; 8]%R.
Proof.
  rewrite C44_fftconvolve_real by (left; discriminate). unfold convolve, direct_convolve, direct_convolve_impl, require. cbn [length Nat.add Nat.sub Nat.eqb Nat.leb].
  cbn. change (Pos.to_nat 1) with 1. change (Pos.to_nat 2) with 2. cbn. unfold Pos.to_nat. cbn.
  match goal with |- Ok [?a; ?b; ?c] = _ => replace a with 3%R by lra; replace b with 10%R by lra; replace c with 8%R by lra end. reflexivity.
Qed.

(** C46: for every length the two are inverse to each other, permute the array, and put element 0 at index n/2 (fftshift)
    resp. the element at n/2 at index 0 (ifftshift); all overloads give the same result *)
Theorem C46_shift_partial : forall (T : Type) (zero : T) (vc : valcat) (c : container) (a : list T), a <> [] \/ vc <> ConstLvalue ->
  exists s rest, fftshift zero vc c a = Ok (s, rest) /\
    length s = length a /\ Permutation s a /\
    (forall d i, i < length a -> nth ((i + length a / 2) mod length a) s d = nth i a d) /\
    (rest = match vc, c with ConstLvalue, _ => a | _, Vector => [] | _, Array => s end).
Proof.
  intros T zero vc c a H.
  assert (E : exists r, fftshift zero vc c a = Ok (rot ((length a + 1) / 2) a, r) /\ r = match vc, c with ConstLvalue, _ => a | _, Vector => [] | _, Array => rot ((length a + 1) / 2) a end).
  { destruct vc; cbn [fftshift]; [rewrite fftshift_const_spec by (destruct H; [assumption|congruence])| |]; rewrite ?fftshift_inplace_spec; cbn [bind]; eexists; split; try reflexivity; destruct c; reflexivity. }
  destruct E as (r & E & Hr). exists (rot ((length a + 1) / 2) a), r. split; [exact E|]. split; [apply rot_length|]. split; [apply rot_perm|]. split; [|exact Hr].
  intros d i Hi. assert (L : length a / 2 <= length a) by apply half_le. rewrite half_up.
  assert (Hm : (i + length a / 2) mod length a < length a) by (apply Nat.mod_upper_bound; lia).
  rewrite rot_nth by lia. f_equal.
  assert (Hh : length a / 2 < length a) by (apply Nat.div_lt; lia).
  destruct (Nat.lt_ge_cases (i + length a / 2) (length a)) as [Lt|Ge].
  - rewrite Nat.mod_small by exact Lt. destruct (Nat.ltb_spec (i + length a / 2) (length a - (length a - length a / 2))); lia.
  - assert (M : (i + length a / 2) mod length a = i + length a / 2 - length a).
    { rewrite <- (Nat.mod_small (i + length a / 2 - length a) (length a)) by lia.
      replace (i + length a / 2) with (i + length a / 2 - length a + 1 * length a) at 1 by lia. apply Nat.mod_add. lia. }
    rewrite M. destruct (Nat.ltb_spec (i + length a / 2 - length a) (length a - (length a - length a / 2))); lia.
Qed.
Print Assumptions C46_shift_partial.
Theorem C46_ishift_partial : forall (T : Type) (zero : T) (vc : valcat) (c : container) (a : list T),
  exists s rest, ifftshift zero vc c a = Ok (s, rest) /\
    length s = length a /\ Permutation s a /\
    (forall d i, i < length a -> nth i s d = nth ((i + length a / 2) mod length a) a d) /\
    (rest = match vc, c with ConstLvalue, _ => a | _, Vector => [] | _, Array => s end).
Proof.
  intros T zero vc c a.
  assert (E : exists r, ifftshift zero vc c a = Ok (rot (length a / 2) a, r) /\ r = match vc, c with ConstLvalue, _ => a | _, Vector => [] | _, Array => rot (length a / 2) a end).
  { destruct vc; cbn [ifftshift]; rewrite ?ifftshift_const_spec, ?ifftshift_inplace_spec; cbn [bind]; eexists; split; try reflexivity; destruct c; reflexivity. }
  destruct E as (r & E & Hr). exists (rot (length a / 2) a), r. split; [exact E|]. split; [apply rot_length|]. split; [apply rot_perm|]. split; [|exact Hr].
  intros d i Hi. assert (L : length a / 2 <= length a) by apply half_le. rewrite rot_nth by lia. f_equal.
  assert (Hh : length a / 2 < length a) by (apply Nat.div_lt; lia).
  destruct (Nat.ltb_spec i (length a - length a / 2)).
  - rewrite Nat.mod_small by lia. reflexivity.
  - rewrite <- (Nat.mod_small (i + length a / 2 - length a) (length a)) by lia.
    replace (i + length a / 2) with (i + length a / 2 - length a + 1 * length a) at 2 by lia. rewrite Nat.mod_add by lia. reflexivity.
Qed.
Print Assumptions C46_ishift_partial.
Theorem C46_inverse_partial : forall (T : Type) (zero : T) (vc1 vc2 : valcat) (c : container) (a : list T), a <> [] ->
  (exists s r r', fftshift zero vc1 c a = Ok (s, r) /\ ifftshift zero vc2 c s = Ok (a, r')) /\
  (exists s r r', ifftshift zero vc1 c a = Ok (s, r) /\ fftshift zero vc2 c s = Ok (a, r')).
Proof.
  intros T zero vc1 vc2 c a H.
  assert (F : forall vc b, b <> [] -> exists r, fftshift zero vc c b = Ok (rot ((length b + 1) / 2) b, r)).
  { intros vc b Hb. destruct vc; cbn [fftshift]; rewrite ?fftshift_const_spec, ?fftshift_inplace_spec by exact Hb; cbn [bind]; eexists; reflexivity. }
  assert (I : forall vc b, exists r, ifftshift zero vc c b = Ok (rot (length b / 2) b, r)).
  { intros vc b. destruct vc; cbn [ifftshift]; rewrite ?ifftshift_const_spec, ?ifftshift_inplace_spec; cbn [bind]; eexists; reflexivity. }
  pose proof (half_le (length a)) as L. pose proof (half_up (length a)) as U. split.
  - destruct (F vc1 a H) as [r E]. destruct (I vc2 (rot ((length a + 1) / 2) a)) as [r' E']. do 3 eexists. split; [exact E|]. rewrite E'.
    rewrite rot_length, U. replace (length a / 2) with (length a - (length a - length a / 2)) at 1 by lia. rewrite rot_rot by lia. reflexivity.
  - destruct (I vc1 a) as [r E]. assert (N : rot (length a / 2) a <> []) by (intros C; apply (f_equal (@length _)) in C; rewrite rot_length in C; destruct a; simpl in C; congruence).
    destruct (F vc2 _ N) as [r' E']. do 3 eexists. split; [exact E|]. rewrite E'. rewrite rot_length, U, rot_rot by lia. reflexivity.
Qed.
Print Assumptions C46_inverse_partial.
(** the const-reference overload of fftshift copies from begin() + 1 of an empty array *)
Theorem C46_fftshift_empty_refuted : forall (T : Type) (zero : T) (c : container),
  fftshift zero ConstLvalue c [] = UB /\ fftshift zero Rvalue c [] = Ok ([], []).
Proof. intros. split; destruct c; reflexivity. Qed.
Print Assumptions C46_fftshift_empty_refuted.
Example C46_nonvacuous : fftshift 0 ConstLvalue Vector [0; 1; 2; 3; 4] = Ok ([3; 4; 0; 1; 2], [0; 1; 2; 3; 4]) /\ fftshift 0 Rvalue Vector [0; 1; 2; 3] = Ok ([2; 3; 0; 1], []).
Proof. split; reflexivity. Qed.

(** C47 (exact arithmetic) *)
Theorem C47_fftfreq : forall (n : nat) (d : Qc), 1 <= n -> (0 < d)%Qc ->
  exists f, fftfreq 0%Qc Qcmult Qcdiv (fun a b => qltb b a) qz (fun x => (x + 1)%Qc) n d = Ok f /\ length f = n /\
  (forall i, i < (n + 1) / 2 -> nth i f 0%Qc = (qz (Z.of_nat i) / (qz (Z.of_nat n) * d))%Qc) /\
  (forall i, (n + 1) / 2 <= i < n -> nth i f 0%Qc = (qz (Z.of_nat i - Z.of_nat n) / (qz (Z.of_nat n) * d))%Qc).
Proof.
  intros n d Hn Hd. destruct (qfftfreq_ok n d Hn Hd) as (f & E & L & V). exists f. split; [exact E|]. split; [exact L|]. split; intros i Hi.
  - rewrite V by (pose proof (half_up n); pose proof (half_le n); lia). destruct (Nat.ltb_spec i ((n + 1) / 2)); [reflexivity|lia].
  - rewrite V by lia. destruct (Nat.ltb_spec i ((n + 1) / 2)); [lia|reflexivity].
Qed.
Print Assumptions C47_fftfreq.
Theorem C47_fftshift_increasing : forall (n : nat) (d : Qc), 1 <= n -> (0 < d)%Qc ->
  exists f g, fftfreq 0%Qc Qcmult Qcdiv (fun a b => qltb b a) qz (fun x => (x + 1)%Qc) n d = Ok f /\
  fftshift 0%Qc Rvalue Vector f = Ok (g, []) /\ length g = n /\ nth (n / 2) g 0%Qc = 0%Qc /\ (forall i j, i < j < n -> (nth i g 0 < nth j g 0)%Qc).
Proof.
  intros n d Hn Hd. destruct (qfftfreq_shifted n d Hn Hd) as (f & g & E & G & L & V & I). exists f, g. split; [exact E|]. cbn [fftshift]. rewrite G. cbn [bind moved_from].
  split; [reflexivity|]. split; [exact L|]. split; [|exact I].
  assert (n / 2 < n) by (apply Nat.div_lt; lia). rewrite V by lia. rewrite Z.sub_diag. unfold Qcdiv. change (qz 0) with 0%Qc. ring.
Qed.
Print Assumptions C47_fftshift_increasing.
Theorem C47_rfftfreq : forall (n : nat) (d : Qc), 1 <= n -> (0 < d)%Qc ->
  exists f, rfftfreq 0%Qc Qcmult Qcdiv (fun a b => qltb b a) qz (fun x => (x + 1)%Qc) n d = Ok f /\ length f = n / 2 + 1 /\
  forall i, i <= n / 2 -> nth i f 0%Qc = (qz (Z.of_nat i) / (qz (Z.of_nat n) * d))%Qc.
Proof.
  intros n d Hn Hd. eexists. split; [apply (qrfftfreq_ok n d Hn Hd)|]. rewrite map_length, seq_length. split; [reflexivity|].
  intros i Hi. exact (coef_list (rO := 0%Qc) _ (n / 2 + 1) (fun i => (qz (Z.of_nat i) / (qz (Z.of_nat n) * d))%Qc) eq_refl i ltac:(lia)).
Qed.
Print Assumptions C47_rfftfreq.
(** bad arguments are rejected *)
Theorem C47_rejects : forall (n : nat) (d : Qc), n = 0 \/ ~ (0 < d)%Qc ->
  fftfreq 0%Qc Qcmult Qcdiv (fun a b => qltb b a) qz (fun x => (x + 1)%Qc) n d = RequireFail /\
  rfftfreq 0%Qc Qcmult Qcdiv (fun a b => qltb b a) qz (fun x => (x + 1)%Qc) n d = RequireFail.
Proof.
  intros n d H. unfold fftfreq, rfftfreq, require. destruct (Nat.ltb_spec 0 n); [|split; reflexivity].
  destruct (qltb_spec 0 d) as [q|q]; [|split; reflexivity]. destruct H as [H|H]; [lia|contradiction].
Qed.
Print Assumptions C47_rejects.
Example C47_nonvacuous : omap (map this) (fftfreq 0%Qc Qcmult Qcdiv (fun a b => qltb b a) qz (fun x => (x + 1)%Qc) 5 (qz 2)) = Ok [0; 1 # 10; 1 # 5; - 1 # 5; - 1 # 10]%Q.
Proof. reflexivity. Qed.

(** C48 *)
Theorem C48_next_fast_len : forall (n : Z), exists fuel0 m,
  (forall fuel, fuel0 <= fuel -> next_fast_len fuel n = Ok (Some m)) /\
  (n <= m)%Z /\ ((1 <= m)%Z /\ forall p, prime p -> (p | m)%Z -> (p = 2 \/ p = 3 \/ p = 5)%Z) /\
  (forall m', (1 <= m')%Z -> (forall p, prime p -> (p | m')%Z -> (p = 2 \/ p = 3 \/ p = 5)%Z) -> (n <= m')%Z -> (m <= m')%Z).
Proof.
  intros n. set (f0 := S (Z.to_nat n)).
  destruct (next_fast_len_spec n f0 ltac:(unfold f0; lia) ltac:(unfold f0; lia)) as (m & E & L & Sm & Mn). exists f0, m.
  split.
  - intros fuel Hf. destruct (next_fast_len_spec n fuel ltac:(unfold f0 in Hf; lia) ltac:(unfold f0 in Hf; lia)) as (m' & E' & L' & Sm' & Mn').
    replace m with m'; [exact E'|]. apply Z.le_antisymm; [apply Mn'; assumption|apply Mn; assumption].
  - split; [exact L|]. split; [exact Sm|]. intros m' H1 Hp Hn. apply Mn; [split; assumption|exact Hn].
Qed.
Print Assumptions C48_next_fast_len.
Example C48_nonvacuous : next_fast_len 40 67 = Ok (Some 72%Z) /\ next_fast_len 100 121 = Ok (Some 125%Z).
Proof. split; reflexivity. Qed.

(** C49 *)
Theorem C49_zero_padding : forall (T : Type) (zero : T) (v : list T) (m : nat), exists r,
  zero_padding_const zero v m = Ok r /\ zero_padding_rvalue zero v m = r /\ length r = m /\
  (forall i, i < m -> i < length v -> nth_error r i = nth_error v i) /\ (forall i, i < m -> length v <= i -> nth_error r i = Some zero).
Proof.
  intros T zero v m. exists (firstn m v ++ repeat zero (m - length v)). split; [apply zero_padding_const_spec|]. split; [reflexivity|]. split; [apply pad_length|].
  assert (G : forall i, i < m -> nth_error (firstn m v ++ repeat zero (m - length v)) i = Some (nth i v zero)).
  { intros i Hi. rewrite nth_error_nth' with (d := zero) by (rewrite pad_length; exact Hi). now rewrite pad_coef. }
  split; intros i H1 H2; rewrite G by exact H1; [symmetry; now apply nth_error_nth'|]. now rewrite nth_overflow.
Qed.
Print Assumptions C49_zero_padding.
Example C49_nonvacuous : zero_padding_const 0 [1; 2; 3] 5 = Ok [1; 2; 3; 0; 0] /\ zero_padding_const 0 [1; 2; 3] 2 = Ok [1; 2].
Proof. split; reflexivity. Qed.

(** C73: given an engine that computes the DFT, the wrappers compute it for every non-empty input, and the inverses invert. *)
Theorem C73_fft : forall x : list cx, x <> [] -> exists y, fft_c x = Ok y /\ length y = length x /\
  forall k, k < length x -> nth k y x0 =
    nsum x0 xadd (fun j => xmul (nth j x x0)
      (cos (2 * PI * INR j * INR k / INR (length x)), - sin (2 * PI * INR j * INR k / INR (length x)))%R) (length x).
Proof.
  intros x H. exists (dft x). split; [now apply fft_c_ok|]. split; [apply dft_length|]. intros k Hk.
  change (nth k (dft x) x0) with (xcoef (dft x) k). rewrite dft_coef by exact Hk. apply sum_ext. intros j Hj. f_equal. unfold root, ang.
  replace (2 * PI * IZR (Z.of_nat j * Z.of_nat k) / INR (length x))%R with (2 * PI * INR j * INR k / INR (length x))%R by (rewrite mult_IZR, <- !INR_IZR_INZ; unfold Rdiv; ring). reflexivity.
Qed.
Print Assumptions C73_fft.
Theorem C73_real_input : forall x : list R, x <> [] -> exists y h,
  fft_c (map xre x) = Ok y /\ fft_r x = Ok y /\ rfft x = Ok h /\ h = firstn (length x / 2 + 1) y /\ length h = length x / 2 + 1 /\
  (forall k, 1 <= k < length x -> nth (length x - k) y x0 = xconj (nth k y x0)).
Proof.
  intros x H. assert (H' : map xre x <> []) by (destruct x; [congruence|discriminate]).
  exists (dft (map xre x)), (firstn (length x / 2 + 1) (dft (map xre x))). split; [now apply fft_c_ok|]. split; [now apply fft_r_ok|]. split; [now apply rfft_ok|].
  split; [reflexivity|]. split; [eapply rfft_length; [exact H|now apply rfft_ok]|]. intros k Hk. apply dft_real_hermitian; lia.
Qed.
Print Assumptions C73_real_input.
Theorem C73_ifft_inverts : forall x : list cx, x <> [] ->
  exists y, fft_c x = Ok y /\ ifft_c y (-1) = Ok x /\ ifft_c y (Z.of_nat (length x)) = Ok x.
Proof.
  intros x H. exists (dft x). split; [now apply fft_c_ok|].
  assert (H' : dft x <> []) by (intros C; apply (f_equal (@length _)) in C; rewrite dft_length in C; destruct x; simpl in C; congruence).
  split; [rewrite ifft_c_default by exact H'; now rewrite idft_dft|].
  rewrite ifft_c_n by now apply nonempty_len. rewrite <- (dft_length x) at 1 2. rewrite pad_id. now rewrite idft_dft.
Qed.
Print Assumptions C73_ifft_inverts.
Theorem C73_irfft_inverts : forall x : list R, x <> [] -> exists y, rfft x = Ok y /\ irfft y (Z.of_nat (length x)) = Ok x /\
  (Nat.even (length x) = true -> irfft y (-1) = Ok x).
Proof.
  intros x H. destruct (irfft_rfft x H) as (y & E & _ & I). exists y. split; [exact E|]. split; [exact I|].
  intros He. destruct (irfft_rfft_even x H He) as (y' & E' & I'). rewrite E in E'. injection E' as <-. exact I'.
Qed.
Print Assumptions C73_irfft_inverts.
Theorem C73_parseval : forall x : list cx, x <> [] -> exists y, fft_c x = Ok y /\
  (nsum 0 Rplus (fun k => fst (nth k y x0) * fst (nth k y x0) + snd (nth k y x0) * snd (nth k y x0)) (length x) =
   INR (length x) * nsum 0 Rplus (fun j => fst (nth j x x0) * fst (nth j x x0) + snd (nth j x x0) * snd (nth j x x0)) (length x))%R.
Proof. intros x H. exists (dft x). split; [now apply fft_c_ok|]. exact (parseval x). Qed.
Print Assumptions C73_parseval.
Theorem C73_empty_rejected : fft_c [] = RequireFail /\ fft_r [] = RequireFail /\ rfft [] = RequireFail.
Proof. repeat split. Qed.
Print Assumptions C73_empty_rejected.
Example C73_nonvacuous : fft_r [5]%R = Ok [xre 5] /\ exists y, rfft [1; 2; 3]%R = Ok y /\ irfft y 3 = Ok [1; 2; 3]%R.
Proof.
  split; [rewrite fft_r_ok by discriminate; cbn [map]; now rewrite dft_single|].
  destruct (C73_irfft_inverts [1; 2; 3]%R ltac:(discriminate)) as (y & E & I & _). exists y. split; [exact E|exact I].
Qed.
