(** Model of the multithreaded accumulation of scicpp/signal/spectral.hpp as a transition system: the main thread, the workers of the
    pool and the mutex take steps in any order. *)
From Coq Require Import ZArith.
From Verif Require Import Base Functional.
Open Scope nat_scope.
Set Implicit Arguments.

Section Pool.
Context {T : Type}.
Variables (zero : T) (add : T -> T -> T).
Variables (nthreads nseg nfft : nat).
(** get_segment_psd(i): the spectrum of segment i, a function of i only (it reads the signal, the window, never [res]) *)
Variable psd : nat -> outcome (list T).

(** spectral.hpp:364-371: the body of a worker started for segment i.
    [WStart]: running get_segment_psd, not yet returned; [WReady]: has seg_spectrum, waits for the mutex;
    [WLocked]: std::lock_guard constructed; [WMoved]: std::move(res) handed to operator+ (res is empty meanwhile);
    [WStored]: the sum moved back into res, mutex still held; [WDone]: mutex released, thread function returned. *)
Inductive worker := WStart (i : nat) | WReady (i : nat) (v : list T) | WLocked (i : nat) (v : list T)
  | WMoved (i : nat) (v tmp : list T) | WStored (i : nat) | WDone (i : nat).
(** spectral.hpp:328-348: position of the main thread.  [MWhile]: the test i < nseg; [MSpawn j]: first for loop, element j;
    [MJoin j]: second for loop, element j; [MExit]: function returned. *)
Inductive main := MWhile | MSpawn (j : nat) | MJoin (j : nat) | MExit.
(** [pool]: None is a std::thread that is not joinable.  [calls]: the segments for which get_segment_psd has returned.
    [failed]: a precondition failed in a worker, or std::terminate (assignment to a joinable std::thread). *)
Record state := { mn : main; next : nat; pool : list (option worker); res : list T; lock : bool; calls : list nat; failed : bool }.
(** spectral.hpp:329-330 and 356 *)
Definition init : state :=
  {| mn := MWhile; next := 0; pool := repeat None nthreads; res := repeat zero nfft; lock := false; calls := []; failed := false |}.

Definition set_main (s : state) (m : main) : state :=
  {| mn := m; next := next s; pool := pool s; res := res s; lock := lock s; calls := calls s; failed := failed s |}.
Definition fail (s : state) : state :=
  {| mn := mn s; next := next s; pool := pool s; res := res s; lock := lock s; calls := calls s; failed := true |}.

Inductive step (s : state) : state -> Prop :=
(* main thread: spectral.hpp:332 *)
| s_while : failed s = false -> mn s = MWhile -> next s < nseg -> step s (set_main s (MSpawn 0))
| s_exit : failed s = false -> mn s = MWhile -> nseg <= next s -> step s (set_main s MExit)
(* spectral.hpp:333-340: start thread j on segment i, ++i, leave the loop when i >= nseg *)
| s_spawn j : failed s = false -> mn s = MSpawn j -> nth_error (pool s) j = Some None ->
    step s {| mn := if nseg <=? S (next s) then MJoin 0 else MSpawn (S j); next := S (next s); pool := upd (pool s) j (Some (WStart (next s)));
              res := res s; lock := lock s; calls := calls s; failed := false |}
| s_terminate j w : failed s = false -> mn s = MSpawn j -> nth_error (pool s) j = Some (Some w) -> step s (fail s)
| s_spawned j : failed s = false -> mn s = MSpawn j -> length (pool s) <= j -> step s (set_main s (MJoin 0))
(* spectral.hpp:342-346: join waits for the end of the thread function *)
| s_join j i : failed s = false -> mn s = MJoin j -> nth_error (pool s) j = Some (Some (WDone i)) ->
    step s {| mn := MJoin (S j); next := next s; pool := upd (pool s) j None; res := res s; lock := lock s; calls := calls s; failed := false |}
| s_skip j : failed s = false -> mn s = MJoin j -> nth_error (pool s) j = Some None -> step s (set_main s (MJoin (S j)))
| s_joined j : failed s = false -> mn s = MJoin j -> length (pool s) <= j -> step s (set_main s MWhile)
(* workers: spectral.hpp:365 *)
| w_compute j i v : failed s = false -> nth_error (pool s) j = Some (Some (WStart i)) -> psd i = Ok v ->
    step s {| mn := mn s; next := next s; pool := upd (pool s) j (Some (WReady i v)); res := res s; lock := lock s; calls := i :: calls s; failed := false |}
| w_require j i : failed s = false -> nth_error (pool s) j = Some (Some (WStart i)) -> (forall v, psd i <> Ok v) -> step s (fail s)
(* spectral.hpp:368: the mutex must be free *)
| w_acquire j i v : failed s = false -> nth_error (pool s) j = Some (Some (WReady i v)) -> lock s = false ->
    step s {| mn := mn s; next := next s; pool := upd (pool s) j (Some (WLocked i v)); res := res s; lock := true; calls := calls s; failed := false |}
(* spectral.hpp:369 *)
| w_move j i v : failed s = false -> nth_error (pool s) j = Some (Some (WLocked i v)) ->
    step s {| mn := mn s; next := next s; pool := upd (pool s) j (Some (WMoved i v (res s))); res := []; lock := lock s; calls := calls s; failed := false |}
| w_add j i v tmp r : failed s = false -> nth_error (pool s) j = Some (Some (WMoved i v tmp)) -> map2 add tmp v = Ok r ->
    step s {| mn := mn s; next := next s; pool := upd (pool s) j (Some (WStored i)); res := r; lock := lock s; calls := calls s; failed := false |}
| w_add_fail j i v tmp : failed s = false -> nth_error (pool s) j = Some (Some (WMoved i v tmp)) -> (forall r, map2 add tmp v <> Ok r) -> step s (fail s)
(* spectral.hpp:370 *)
| w_release j i : failed s = false -> nth_error (pool s) j = Some (Some (WStored i)) ->
    step s {| mn := mn s; next := next s; pool := upd (pool s) j (Some (WDone i)); res := res s; lock := false; calls := calls s; failed := false |}.

Inductive reachable : state -> Prop :=
| r_init : reachable init
| r_step s s' : reachable s -> step s s' -> reachable s'.
End Pool.

Section Accumulate.
Context {T : Type}.
Variables (zero : T) (add : T -> T -> T) (divn : T -> Z -> T).
(** spectral.hpp:358-361: the sequential loop *)
Fixpoint accumulate (psd : nat -> outcome (list T)) (res : list T) (i cnt : nat) : outcome (list T) :=
  match cnt with
  | O => Ok res
  | S k => do p <- psd i; do r <- map2 add res p; accumulate psd r (S i) k
  end.
(** spectral.hpp:350-375 compute_spectrum: a relation, because of the schedule.  nseg is a signed integer; both loops run for
    i = 0 .. nseg - 1, not at all when nseg <= 0 (Z.to_nat nseg = 0). *)
Inductive compute_spectrum (nthreads nfft : nat) (nseg : Z) (psd : nat -> outcome (list T)) : outcome (list T) -> Prop :=
| cs_sequential r : nthreads <= 1 \/ nseg = 1%Z ->
    (do x <- accumulate psd (repeat zero nfft) 0 (Z.to_nat nseg); Ok (transform1 (fun v => divn v nseg) x)) = r ->
    compute_spectrum nthreads nfft nseg psd r
| cs_threads s : 1 < nthreads -> nseg <> 1%Z -> reachable zero add nthreads (Z.to_nat nseg) nfft psd s -> mn s = MExit -> failed s = false ->
    compute_spectrum nthreads nfft nseg psd (Ok (transform1 (fun v => divn v nseg) (res s)))
| cs_failed s : 1 < nthreads -> nseg <> 1%Z -> reachable zero add nthreads (Z.to_nat nseg) nfft psd s -> failed s = true ->
    compute_spectrum nthreads nfft nseg psd UB.
End Accumulate.
