(** Model of the FFT wrappers of scicpp/signal/fft.hpp and of fftconvolve (scicpp/signal/convolve.hpp), over exact
    complex numbers.  The Eigen FFT engine is a dependency outside /repo: it is represented by the textbook DFT
    ([dft], [idft] of CplxR.v); its real-output inverse uses only the first nfft/2 + 1 bins and the conjugate symmetry. *)
From Coq Require Import ZArith Reals.
From Verif Require Import Base Functional Spec SumLib CplxR Polynomial Fft.
Open Scope nat_scope.

(** Eigen::FFT::fwd (complex input, real input) and inv (complex output, real output); nfft = 0 reads &v[0] of an empty vector. *)
Definition eigen_fwd_c (x : list cx) : list cx := dft x.
Definition eigen_fwd_r (x : list R) : list cx := dft (map xre x).
Definition eigen_inv_c (y : list cx) : outcome (list cx) := if length y =? 0 then UB else Ok (idft y).
(** bin k of the conjugate-symmetric extension of the first N/2 + 1 bins *)
Definition sym_bin (y : list cx) (N k : nat) : cx := if k <=? N / 2 then nth k y x0 else xconj (nth (N - k) y x0).
Definition eigen_inv_r (y : list cx) : outcome (list R) :=
  let N := length y in
  if N =? 0 then UB else Ok (map (@fst R R) (idft (map (sym_bin y N) (seq 0 N)))).

(** fft.hpp:190-233: real and complex element types *)
Definition fft_c (x : list cx) : outcome (list cx) :=
  require (negb (length x =? 0)) (if length x =? 1 then do v <- at_ub x 0; Ok [v] else Ok (eigen_fwd_c x)).
Definition fft_r (x : list R) : outcome (list cx) :=
  require (negb (length x =? 0)) (if length x =? 1 then do v <- at_ub x 0; Ok [xre v] else Ok (eigen_fwd_r x)).
(** fft.hpp:235-272: dst has size/2 + 1 elements and the engine runs with the HalfSpectrum flag *)
Definition rfft (x : list R) : outcome (list cx) :=
  require (negb (length x =? 0)) (if length x =? 1 then do v <- at_ub x 0; Ok [xre v] else Ok (firstn (length x / 2 + 1) (eigen_fwd_r x))).
(** fft.hpp:276-288 *)
Definition ifft_c (y : list cx) (n : Z) : outcome (list cx) :=
  if ((Z.of_nat (length y) =? n) || (n <? 0))%Z then eigen_inv_c y
  else do p <- zero_padding_const x0 y (Z.to_nat n); eigen_inv_c p.
(** fft.hpp:292-302 to_complex and 306-313 *)
Definition to_complex (y : list R) (n : nat) : outcome (list cx) :=
  copy_range (transform1 xre y) 0 (Z.of_nat (Nat.min n (length y))) (repeat x0 n) 0.
Definition ifft_r (y : list R) (n : Z) : outcome (list cx) :=
  let size := if (n <? 0)%Z then length y else Z.to_nat n in
  do c <- to_complex y size; eigen_inv_c c.
(** fft.hpp:315-328; 2 * (y.size() - 1) wraps for an empty y: std::length_error in zeros() *)
Definition irfft (y : list cx) (n : Z) : outcome (list R) :=
  if (Z.of_nat (length y) =? n)%Z then eigen_inv_r y
  else if ((n <? 0)%Z && (length y =? 0))%bool then Throw
  else let size := if (n <? 0)%Z then 2 * (length y - 1) else Z.to_nat n in
       do p <- zero_padding_const x0 y size; eigen_inv_r p.

(** convolve.hpp:89-107.  a.size() + v.size() - 1 wraps when both are empty: nothing is claimed there (UB).
    The sizes are taken to fit in an int.  [None] (search for the fast length out of fuel) is unreachable. *)
Definition fast_size (res_size : nat) : outcome nat :=
  do o <- next_fast_len (S res_size) (Z.of_nat res_size);
  match o with Some m => Ok (Z.to_nat m) | None => UB end.
Definition fftconvolve_c (a v : list cx) : outcome (list cx) :=
  if length a + length v =? 0 then UB else
  let res_size := length a + length v - 1 in
  do fft_size <- fast_size res_size;
  do a_pad <- zero_padding_const x0 a fft_size;
  do v_pad <- zero_padding_const x0 v fft_size;
  do fa <- fft_c a_pad;
  do fv <- fft_c v_pad;
  do p <- map2 xmul fa fv;
  do res <- ifft_c p (Z.of_nat fft_size);
  Ok (class_resize x0 res res_size).
Definition fftconvolve_r (a v : list R) : outcome (list R) :=
  if length a + length v =? 0 then UB else
  let res_size := length a + length v - 1 in
  do fft_size <- fast_size res_size;
  do a_pad <- zero_padding_const 0%R a fft_size;
  do v_pad <- zero_padding_const 0%R v fft_size;
  do fa <- rfft a_pad;
  do fv <- rfft v_pad;
  do p <- map2 xmul fa fv;
  do res <- irfft p (Z.of_nat fft_size);
  Ok (class_resize 0%R res res_size).
