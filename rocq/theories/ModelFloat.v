(** * Where rounding and NaN matter: the clock of the time loop and the global reductions in IEEE binary64. *)
From Coq Require Import ZArith List Bool.
From Flocq Require Import Core.Core IEEE754.BinarySingleNaN.
Import ListNotations.

(** C++ [double] on every supported platform; one NaN (payloads do not matter here). *)
Definition prec64 : Prec_gt_0 53 := eq_refl.
Definition emax64 : Prec_lt_emax 53 1024 := eq_refl.
#[global] Existing Instance prec64.
#[global] Existing Instance emax64.
Definition double : Set := binary_float 53 1024.
Definition dplus : double -> double -> double := Bplus mode_NE.
Definition dminus : double -> double -> double := Bminus mode_NE.
Definition ddiv : double -> double -> double := Bdiv mode_NE.
Definition dzero : double := B754_zero false.
Definition done : double := Bone.
(** std::numeric_limits<double>::max(), lowest() *)
Definition dmax : double := Bmax_float.
Definition dlowest : double := Bopp Bmax_float.

(** main.cpp:377-381 and 528: test for the end time, the last [dt], and [t += dt]. *)
Definition end_of_run (t_end t dt : double) : bool * double :=
  if Bleb t_end (dplus t dt) then (true, dminus t_end t) else (false, dt).
Definition next_time (t_end t dt : double) : double := dplus t (snd (end_of_run t_end t dt)).

(** main.cpp:366-374: the same for a scheduled output time [next] (when the step is positive). *)
Definition time_of_output (next t : double) : double := dplus t (dminus next t).

(** Kokkos::min and Kokkos::max *)
Definition kmin (a b : double) : double := if Bltb b a then b else a.
Definition kmax (a b : double) : double := if Bltb a b then b else a.

(** A parallel_reduce followed by MPI_Allreduce: each thread starts from the identity of the reducer and takes in its
    cells one by one; partial results are joined in any order. *)
Inductive schedule : Set :=
| Thread (cells : list double)
| Join (dest src : schedule).

(** Kokkos::Min<double>: identity DBL_MAX, join [if (src < dest) dest = src];
    internal_energy.cpp:26-43: [local = min(local, cell)] (MPI_MIN: the same join). *)
Fixpoint reduce_min (s : schedule) : double :=
  match s with
  | Thread cells => fold_left kmin cells dmax
  | Join dest src => kmin (reduce_min dest) (reduce_min src)
  end.
(** Kokkos::Max<double>: identity lowest(), join [if (src > dest) dest = src]; time_step.hpp:56-78 *)
Fixpoint reduce_max (s : schedule) : double :=
  match s with
  | Thread cells => fold_left kmax cells dlowest
  | Join dest src => kmax (reduce_max dest) (reduce_max src)
  end.

(** main.cpp:399: [isnan(min) || min < 0] *)
Definition energy_alarm (s : schedule) : bool := is_nan (reduce_min s) || Bltb (reduce_min s) dzero.
(** time_step.hpp:82 *)
Definition time_step_of (s : schedule) : double := ddiv done (reduce_max s).

Fixpoint cells_of_schedule (s : schedule) : list double :=
  match s with
  | Thread cells => cells
  | Join a b => cells_of_schedule a ++ cells_of_schedule b
  end.
