(** Model of scicpp/signal/fft.hpp (helpers and FFT wrappers) and of fftconvolve (scicpp/signal/convolve.hpp). *)
From Coq Require Import ZArith.
From Verif Require Import Base Functional Polynomial.
Open Scope nat_scope.

Section Helpers.
Context {T : Type}.
Variables (zero : T).

(** std::rotate(begin, begin + mid, end) *)
Definition rotate (a : list T) (mid : Z) : outcome (list T) :=
  if ((0 <=? mid) && (mid <=? Z.of_nat (length a)))%Z then Ok (skipn (Z.to_nat mid) a ++ firstn (Z.to_nat mid) a) else UB.
(** std::copy(a.begin() + from, a.begin() + to, res.begin() + pos): the source range must be valid, the destination large enough *)
Definition copy_range (a : list T) (from to : Z) (res : list T) (pos : Z) : outcome (list T) :=
  if ((0 <=? from) && (from <=? to) && (to <=? Z.of_nat (length a)) && (0 <=? pos))%Z then
    copy_at res (Z.to_nat pos) (firstn (Z.to_nat (to - from)) (skipn (Z.to_nat from) a))
  else UB.
(** signed_size_t(a.size() - 1): the subtraction wraps in std::size_t, the conversion gives -1 for an empty array;
    all integer divisions of signed values truncate towards zero (Z.quot) *)
Definition size_minus_1 (a : list T) : Z := (Z.of_nat (length a) - 1)%Z.

(** fft.hpp:26-32 (forwarding reference: rvalues and non-const lvalues, rotated in place) *)
Definition fftshift_inplace (a : list T) : outcome (list T) := rotate a (Z.quot (Z.of_nat (length a + 1)) 2).
(** fft.hpp:34-44 (const reference) *)
Definition fftshift_const (a : list T) : outcome (list T) :=
  let res := repeat zero (length a) in
  let offset := (Z.quot (size_minus_1 a) 2 + 1)%Z in
  do r <- copy_range a offset (Z.of_nat (length a)) res 0;
  copy_range a 0 offset r (Z.quot (Z.of_nat (length a)) 2).
(** fft.hpp:46-51 *)
Definition ifftshift_inplace (a : list T) : outcome (list T) := rotate a (Z.quot (Z.of_nat (length a)) 2).
(** fft.hpp:53-63 *)
Definition ifftshift_const (a : list T) : outcome (list T) :=
  let res := repeat zero (length a) in
  let offset := Z.quot (Z.of_nat (length a)) 2 in
  do r <- copy_range a offset (Z.of_nat (length a)) res 0;
  copy_range a 0 offset r (Z.quot (Z.of_nat (length a + 1)) 2).
(** which overload a call selects; returns the result and what the argument holds afterwards (std::move(a) in the return) *)
Definition fftshift (vc : valcat) (c : container) (a : list T) : outcome (list T * list T) :=
  match vc with
  | ConstLvalue => do r <- fftshift_const a; Ok (r, a)
  | _ => do r <- fftshift_inplace a; Ok (r, moved_from c r)
  end.
Definition ifftshift (vc : valcat) (c : container) (a : list T) : outcome (list T * list T) :=
  match vc with
  | ConstLvalue => do r <- ifftshift_const a; Ok (r, a)
  | _ => do r <- ifftshift_inplace a; Ok (r, moved_from c r)
  end.

(** fft.hpp:168-178 *)
Definition zero_padding_const (v : list T) (new_size : nat) : outcome (list T) :=
  copy_range v 0 (Z.of_nat (Nat.min new_size (length v))) (repeat zero new_size) 0.
(** fft.hpp:180-184: resize(new_size, 0) *)
Definition zero_padding_rvalue (v : list T) (new_size : nat) : list T := class_resize zero v new_size.
End Helpers.

Section Freq.
Context {T : Type}.
Variables (zero : T) (mul div : T -> T -> T) (gtb : T -> T -> bool) (ofint : Z -> T) (succ : T -> T).
(** std::iota: x, x+1, x+2, ... by repeated ++ *)
Fixpoint iota (n : nat) (x : T) : list T := match n with O => [] | S k => x :: iota k (succ x) end.
(** fft.hpp:69-75 and 86-96: the temporaries are rvalues *)
Definition fftfreq (n : nat) (d : T) : outcome (list T) :=
  require (0 <? n) (require (gtb d zero)
    (let N := Z.of_nat n in
     let res := iota n (ofint (- Z.quot N 2)) in
     ifftshift_inplace (transform1 (fun x => div x (mul d (ofint N))) res))).
(** fft.hpp:77-82 and 98-108 *)
Definition rfftfreq (n : nat) (d : T) : outcome (list T) :=
  require (0 <? n) (require (gtb d zero)
    (Ok (transform1 (fun x => div x (mul d (ofint (Z.of_nat n)))) (iota (n / 2 + 1) (ofint 0))))).
End Freq.

(** fft.hpp:116-147: the generator of the numbers with prime factors in H; state (hp, hv, x), x in generation order. *)
Record hamming := { h_hp : list nat; h_hv : list Z; h_x : list Z }.
Definition hamming_init (pfs : list Z) : hamming := {| h_hp := map (fun _ => 0) pfs; h_hv := pfs; h_x := [1%Z] |}.
(** m_x.back() *)
Definition back (x : list Z) : outcome Z := match rev x with [] => UB | y :: _ => Ok y end.
(** fft.hpp:131-132: for (; hv <= back; hv = x[++hp] * h) {} for one prime h; [fuel] > number of elements of x *)
Fixpoint hamming_advance (fuel : nat) (x : list Z) (bk h : Z) (hp : nat) (hv : Z) : outcome (nat * Z) :=
  match fuel with
  | O => Ok (hp, hv)
  | S f => if (hv <=? bk)%Z then do y <- at_ub x (S hp); hamming_advance f x bk h (S hp) (y * h)%Z else Ok (hp, hv)
  end.
(** the loop over the primes *)
Fixpoint hamming_advance_all (x : list Z) (bk : Z) (pfs : list Z) (hp : list nat) (hv : list Z) : outcome (list nat * list Z) :=
  match pfs, hp, hv with
  | h :: pfs', p :: hp', v :: hv' =>
      do (p2, v2) <- hamming_advance (S (length x)) x bk h p v;
      do (ps, vs) <- hamming_advance_all x bk pfs' hp' hv';
      Ok (p2 :: ps, v2 :: vs)
  | _, _, _ => Ok ([], [])
  end.
(** fft.hpp:129-145 operator++ (integers unbounded: no overflow) *)
Definition hamming_next (pfs : list Z) (s : hamming) : outcome hamming :=
  do bk <- back (h_x s);
  do (hp, hv) <- hamming_advance_all (h_x s) bk pfs (h_hp s) (h_hv s);
  do v0 <- at_ub hv 0;
  Ok {| h_hp := hp; h_hv := hv; h_x := h_x s ++ [fold_left (fun m v => if (v <? m)%Z then v else m) hv v0] |}.
(** fft.hpp:149-159: range-for over the generator; [fuel] iterations allowed (None: not finished) *)
Fixpoint next_ugly_loop (fuel : nat) (pfs : list Z) (s : hamming) (num : Z) : outcome (option Z) :=
  match fuel with
  | O => Ok None
  | S f => do h <- back (h_x s);
           if (num <=? h)%Z then Ok (Some h) else do s' <- hamming_next pfs s; next_ugly_loop f pfs s' num
  end.
Definition primes235 : list Z := [2; 3; 5]%Z.
(** fft.hpp:161-166 *)
Definition next_fast_len (fuel : nat) (num : Z) : outcome (option Z) := next_ugly_loop fuel primes235 (hamming_init primes235) num.
