(** * Processes launched at their own speed: C95. *)
From Coq Require Import Ascii Reals.
From Coq Require String.
From Verif Require Import Base RBase ModelMesh ModelGeom ModelBoundary ModelHydro ModelRad ModelScheme ModelStep ModelUtil ModelIni ModelMain
  ModelMove ModelMPI ModelSetup ModelParam ModelLaunch
  SpecMesh SpecGeom SpecBoundary SpecHydro SpecScheme SpecStep SpecSetup SpecMain SpecIni SpecParam SpecMPI SpecLaunch
  ProofParamEx2 ProofLaunch ProofLaunchEx.
Local Open Scope string_scope.
Local Open Scope Z_scope.
Local Open Scope list_scope.

(** ** C95 *)

(** A file that describes a run: however the processes are scheduled, whatever they draw and whatever their clocks say, from
    the opening of the file to the end of the loop there is no deadlock and no mismatched call, and every process that ends
    holds its part of the run described, decided by the draws and the clock of process 0. *)
Theorem C95_launched_processes_execute_the_file : forall b T f p lo hi bc g lim sol user draw s cfl P,
  file_with T f -> described T p -> chosen b T p bc g lim sol user -> starts_with T (b_setup b) (draw (I3 0 0 0)) s ->
  pm_shift_grid p <> "UserDefined" -> implemented (b_geom b) s -> timing p cfl P ->
  exists X K, forall dims, usable b p dims lo hi -> exists L,
    executes b f p lo hi bc g lim sol user (draw (I3 0 0 0)) s cfl P X K dims L /\
    (messages_fit b p dims -> forall clock n,
       let D := mpi_dims (b_nd b) dims in let W := launch b dims (Some f) draw clock n in
       sound D W /\
       forall m v, program b dims (Some f) (draw (I3 0 0 0)) (clock (I3 0 0 0)) n = Ok (Some (m, v)) ->
       forall x r, reaches D (start W) x -> In r (ranks D) -> ended (x r) -> pc (x r) = Ret (held X (k_bcs K) m r, v)).
Proof. exact file_launched_sound. Qed.
Print Assumptions C95_launched_processes_execute_the_file.

(** Any other file, of any bytes: when the program throws before its loop, all processes end by the same exception, on any
    process grid and in any schedule; none is left waiting for another.  (The setup refuses a geometry before the operators of the
    loop are looked at.) *)
Theorem C95_refused_by_all_processes : forall b dims file draw clock n w,
  (forall d, (d < 3)%nat -> 1 <= coord d dims) -> no_overflow b dims file ->
  (forall m p, reader_of file = Ok m -> read_param m = Ok p -> pm_restart p = false) ->
  program b dims file (draw (I3 0 0 0)) (clock (I3 0 0 0)) n = Throw w ->
  let D := mpi_dims (b_nd b) dims in let W := launch b dims file draw clock n in
  sound D W /\
  exists w', (w' = w \/ startup b dims (I3 0 0 0) file = Throw w /\ exists s, setup_check (b_geom b) s = Throw w') /\
    forall x r, reaches D (start W) x -> In r (ranks D) -> ended (x r) -> pc (x r) = Fail w'.
Proof. exact file_refused_by_all. Qed.
Print Assumptions C95_refused_by_all_processes.

(** The file of C91 on 2 x 2 processes meets the hypotheses of the first theorem, and those of the second when the executable
    has been built with the gravity of the mass of the gas. *)
Example C95_carried_step : forall draw : idx -> R * R * R * R,
  file_with carried_T carried_f /\ described carried_T carried_p /\
  chosen carried_b carried_T carried_p (fun _ => Periodic) carried_g LConstant HLLC UOff /\
  starts_with carried_T KAdvectionGap (draw (I3 0 0 0)) carried_s /\ pm_shift_grid carried_p <> "UserDefined" /\ timing carried_p (1 / 4) carried_P /\
  usable carried_b carried_p (I3 2 2 1) unit_lo unit_hi /\ messages_fit carried_b carried_p (I3 2 2 1).
Proof.
  intros draw. split; [exact carried_file|]. split; [exact carried_described|]. split; [exact carried_chosen|].
  split; [exact (carried_starts _)|]. split; [unfold carried_p; cbv zeta; cbn [pm_shift_grid]; discriminate|].
  split; [exact carried_timing|]. split; [exact carried_usable|exact carried_fit].
Qed.
Example C95_massive_step : forall amp clock n, (forall d, (d < 3)%nat -> 1 <= coord d (I3 2 2 1)) /\ no_overflow massive_b (I3 2 2 1) (Some carried_f) /\
  (forall m p, reader_of (Some carried_f) = Ok m -> read_param m = Ok p -> pm_restart p = false) /\
  program massive_b (I3 2 2 1) (Some carried_f) amp clock n =
    Throw "The function make_internal_mass_gravity does not handle more than 1 MPI process in the first dimension".
Proof. exact massive_rejected. Qed.
