(** * Vocabulary for C95. *)
From Coq Require Import Ascii Reals.
From Verif Require Import Base RBase ModelMesh ModelGeom ModelBoundary ModelHydro ModelScheme ModelStep ModelUtil ModelIni ModelMain
  ModelMove ModelMPI ModelSetup ModelParam SpecStep SpecMPI.
Local Open Scope Z_scope.

(** The messages of a run are within the range of int. *)
Definition messages_fit (b : build) (p : param) (dims : idx) : Prop := forall d r dec, (d < b_nd b)%nat -> process (b_nd b) dims r ->
  mpi_decomposition (b_nd b) (I3 (pm_nx0 p) (pm_nx1 p) (pm_nx2 p)) dims (pm_ng p) r = Ok dec ->
  let e := set_coord d (pm_ng p) (d_nwg dec) in ii e * jj e * kk e * (Z.of_nat (b_nd b) + 2 + pm_nfx p) <= 2 ^ 31 - 1.

(** What process [r] holds of the run [m] of all processes with the coordinates [X] and the boundary conditions [bcs]. *)
Definition held_file (X : nat -> arr1) (bcs : nat -> bcond) (r : idx) (f : file (idx -> pstate)) : file lstate :=
  mkFile (fl_oid f) (fl_iid f) (fl_tid f) (fl_iter f) (fl_t f) (mkLS X true (fun i => Some (bcs i)) (fl_data f r)).
Definition held (X : nat -> arr1) (bcs : nat -> bcond) (m : mstate (idx -> pstate)) (r : idx) : mstate lstate :=
  mkM (m_oid m) (m_iid m) (m_tid m) (m_iter m) (m_t m) (m_record m) (mkLS X true (fun i => Some (bcs i)) (m_st m r))
    (map (held_file X bcs r) (m_files m)).

(** However the processes have run so far: they have all ended, or one can go on even if no message is buffered; calls that
    meet belong together; nothing goes on for ever. *)
Record sound {A : Type} (dims : idx) (W : idx -> prog A) : Prop := {
  so_progress : forall s, reaches dims (start W) s -> all_ended dims s \/ exists s', strict_step dims s s' /\ step dims s s';
  so_match : forall s, reaches dims (start W) s -> ~ has_clash dims s;
  so_bounded : exists B, forall k s, steps dims k (start W) s -> (k <= B)%nat;
  so_ends : forall s, reaches dims (start W) s -> exists s', reaches dims s s' /\ all_ended dims s' }.

(** No process runs into an overflow of int at start-up. *)
Definition no_overflow (b : build) (dims : idx) (file : option bytes) : Prop :=
  forall r w, process (b_nd b) dims r -> startup b dims r file <> UB w.
