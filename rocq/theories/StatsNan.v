(** Model of the statistics restricted by a filter to the non-NaN elements or to an interval, stats.hpp:308-340, 480-565, on real numbers and
    NaN: [None] stands for NaN, and in results also for infinity. *)
From Coq Require Import List Arith ZArith Reals Bool.
From Verif Require Import Base Functional Numeric Stats.
Import ListNotations.
Open Scope nat_scope.
Set Implicit Arguments.

Definition num := option R.
Definition nlift2 (f : R -> R -> R) (x y : num) : num := match x, y with Some a, Some b => Some (f a b) | _, _ => None end.
Definition nadd := nlift2 Rplus. Definition nsub := nlift2 Rminus. Definition nmul := nlift2 Rmult.
Definition ndiv (x y : num) : num := match x, y with Some a, Some b => if Req_EM_T b 0 then None else Some (a / b)%R | _, _ => None end.
(** std::sqrt of a non-negative number *)
Definition nsqrt (x : num) : num := option_map sqrt x.
Definition nofn (n : nat) : num := Some (INR n).
Definition nofz (z : Z) : num := Some (IZR z).
(** comparisons with NaN are false *)
Definition nle (x y : num) : bool := match x, y with Some a, Some b => if Rle_dec a b then true else false | _, _ => false end.
Definition nlt (x y : num) : bool := match x, y with Some a, Some b => if Rlt_dec a b then true else false | _, _ => false end.
(** functional.hpp:177-180 *)
Definition is_number (x : num) : bool := match x with Some _ => true | None => false end.

(** stats.hpp:308-331 *)
Definition nmean (a : list num) (p : num -> bool) : num := mean_filter (Some 0%R) None nadd ndiv nofn false a p.
(** stats.hpp:474-490 *)
Definition nvar_n (ddof : Z) (a : list num) (p : num -> bool) : outcome (num * nat) :=
  var_filter (Some 0%R) (Some 1%R) None None nadd nsub nmul ndiv (fun x => x) nofn nofz false (fun x => x) ddof a p.
(** stats.hpp:485-491 *)
Definition nvar (ddof : Z) (a : list num) (p : num -> bool) : outcome num := omap fst (nvar_n ddof a p).
(** stats.hpp:514-517 *)
Definition nstd (ddof : Z) (a : list num) (p : num -> bool) : outcome num := omap nsqrt (nvar ddof a p).
(** stats.hpp:540-546 *)
Definition nsem (ddof : Z) (a : list num) (p : num -> bool) : outcome num :=
  do (v, n) <- nvar_n ddof a p; Ok (nsqrt (ndiv v (nofn n))).

(** filters::not_nan and filters::Trim(limits, inclusive), functional.hpp:177-180, 188-203 *)
Definition trim (limits : num * num) (inclusive : bool * bool) : num -> bool :=
  f_trim nle nlt (fst limits) (snd limits) (fst inclusive) (snd inclusive).
(** stats.hpp:330-333, 335-340 *)
Definition nanmean a := nmean a is_number.
Definition tmean limits inclusive a := nmean a (trim limits inclusive).
(** stats.hpp:498-501, 503-508 *)
Definition nanvar ddof a := nvar ddof a is_number.
Definition tvar ddof limits inclusive a := nvar ddof a (trim limits inclusive).
(** stats.hpp:524-527, 529-534 *)
Definition nanstd ddof a := omap nsqrt (nanvar ddof a).
Definition tstd ddof limits inclusive a := omap nsqrt (tvar ddof limits inclusive a).
(** stats.hpp:556-559, 561-566 *)
Definition nansem ddof a := nsem ddof a is_number.
Definition tsem ddof limits inclusive a := nsem ddof a (trim limits inclusive).
