(** * Vocabulary for whole runs of the time loop (C37-C44). *)
From Coq Require Import Sorted.
From Verif Require Import Base RBase ModelMesh ModelGeom ModelStep ModelMain SpecBoundary SpecStep.
Set Implicit Arguments.
Local Open Scope R_scope.

(** The iteration was carried through (no exception, no undefined behaviour). *)
Definition completed (v : verdict) : Prop := v = Going \/ v = Finished.

(** The [k]-th scheduled output time. *)
Definition scheduled (p : params) (k : nat) : R := p_time_first p + INR k * p_time_freq p.

(** The CFL time step is positive in every state in which the loop computes it. *)
Definition positive_steps {S : Type} (D : dynamics S) (p : params) (clock : Z -> bool) (m0 : mstate S) : Prop :=
  forall k m, loop D p clock k m0 = (m, Going) -> 0 < y_dt D (m_st m).

(** Parameters for which the output counters cannot leave the range of [int]. *)
Definition counters_fit (p : params) : Prop :=
  (p_max_iter p <= int_max)%Z /\ (p_iter_freq p + Z.max 1 (p_max_iter p) <= int_max)%Z.

Definition last_file {S : Type} (m : mstate S) (f : file S) : Prop := exists l, m_files m = l ++ [f].

(** The same run with another limit on the iterations. *)
Definition with_max_iter (p : params) (n : Z) : params :=
  mkParams (p_t_ini p) (p_t_end p) n (p_iter_freq p) (p_time_freq p) (p_time_first p).
(** ... or another end time. *)
Definition with_t_end (p : params) (t : R) : params :=
  mkParams (p_t_ini p) t (p_max_iter p) (p_iter_freq p) (p_time_freq p) (p_time_first p).

(** Two outputs with the same counters and time, ids [d] apart, and related arrays. *)
Definition same_file {S S' : Type} (related : S -> S' -> Prop) (d : Z) (f : file S) (f' : file S') : Prop :=
  (fl_oid f' = fl_oid f + d)%Z /\ fl_iid f' = fl_iid f /\ fl_tid f' = fl_tid f /\ fl_iter f' = fl_iter f /\
  fl_t f' = fl_t f /\ related (fl_data f) (fl_data f').

(** Two runs on (possibly different) process grids hold the same global arrays: both are slices of the arrays
    of one single-process run. *)
Definition same_arrays (K : config) (N : idx) (X : nat -> arr1) (dims : idx) (L : layout) (dims' : idx) (L' : layout)
  (s s' : idx -> pstate) : Prop :=
  exists L1 s1, laid_out K N one_process X L1 /\ same_results K dims L s s1 /\ same_results K dims' L' s' s1.
