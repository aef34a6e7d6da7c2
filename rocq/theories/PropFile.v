(** * From the parameter file to the results: C91. *)
From Coq Require Import Ascii Reals.
From Coq Require String.
From Verif Require Import Base RBase ModelMesh ModelGeom ModelBoundary ModelHydro ModelRad ModelScheme ModelStep ModelUtil ModelIni ModelMain ModelSetup ModelParam
  SpecMesh SpecGeom SpecBoundary SpecHydro SpecScheme SpecStep SpecPos SpecSetup SpecMain SpecIni SpecParam
  ProofParamEx ProofParamRun2 ProofParamEx2.
Local Open Scope string_scope.
Local Open Scope Z_scope.
Local Open Scope list_scope.

(** ** C91 *)

(** However the file is laid out: every process grid that leaves each process enough cells executes the run that the entries
    of the file describe. *)
Theorem C91_the_file_is_executed : forall b T f p lo hi bc g lim sol user amp s cfl P,
  file_with T f -> described T p -> chosen b T p bc g lim sol user -> starts_with T (b_setup b) amp s ->
  pm_shift_grid p <> "UserDefined" -> implemented (b_geom b) s -> timing p cfl P ->
  exists X K, forall dims, usable b p dims lo hi -> exists L,
    executes b f p lo hi bc g lim sol user amp s cfl P X K dims L.
Proof. exact file_executed. Qed.
Print Assumptions C91_the_file_is_executed.

(** The results do not depend on the process grid: the same verdict, the same outputs at the same times, the same arrays. *)
Theorem C91_any_process_grid : forall b f p lo hi bc g lim sol user amp s cfl P X K dims dims' L L',
  executes b f p lo hi bc g lim sol user amp s cfl P X K dims L -> executes b f p lo hi bc g lim sol user amp s cfl P X K dims' L' ->
  positional s -> forall clock n m v m' v',
  program b dims (Some f) amp clock n = Ok (Some (m, v)) -> program b dims' (Some f) amp clock n = Ok (Some (m', v')) ->
  v' = v /\ m_oid m' = m_oid m /\ m_iter m' = m_iter m /\ m_t m' = m_t m /\
  let same := same_arrays K (I3 (pm_nx0 p) (pm_nx1 p) (pm_nx2 p)) X dims L dims' L' in
  same (m_st m) (m_st m') /\ Forall2 (same_file same 0) (m_files m) (m_files m').
Proof. exact file_any_grid. Qed.
Print Assumptions C91_any_process_grid.

(** A Cartesian file with periodic boundaries and without gravity: all the arrays ever left behind, by runs stopped at any
    time, have the same total mass and momentum, and the same total energy without pressure fix and user step. *)
Theorem C91_totals_are_conserved : forall b f p lo hi bc g lim sol user amp s cfl P X K dims L,
  executes b f p lo hi bc g lim sol user amp s cfl P X K dims L ->
  positional s -> b_geom b = Cartesian -> no_gravity b p -> (forall i, (i < 2 * b_nd b)%nat -> bc i = Periodic) ->
  forall clock n m v clock' n' m' v' St St',
  program b dims (Some f) amp clock n = Ok (Some (m, v)) -> program b dims (Some f) amp clock' n' = Ok (Some (m', v')) ->
  left_behind m St -> left_behind m' St' ->
  integrate K L (fun r c => c_rho (s_cell (St r) c)) = integrate K L (fun r c => c_rho (s_cell (St' r) c)) /\
  (forall k, integrate K L (fun r c => c_rhou (s_cell (St r) c) k) = integrate K L (fun r c => c_rhou (s_cell (St' r) c) k)) /\
  (pm_pressure_fix p <> "On" -> user = UOff ->
     integrate K L (fun r c => c_E (s_cell (St r) c)) = integrate K L (fun r c => c_E (s_cell (St' r) c))).
Proof. exact @file_conserves. Qed.
Print Assumptions C91_totals_are_conserved.

(** A first-order Cartesian file with a small enough CFL number: every array left behind has positive densities, pressures
    and internal energies, and the run is not stopped by the check of the internal energy. *)
Theorem C91_results_are_physical : forall b f p lo hi bc g lim sol user amp s cfl P X K dims L,
  executes b f p lo hi bc g lim sol user amp s cfl P X K dims L ->
  positional s -> (forall a b c d e f g, s <> SRayleighTaylor3d a b c d e f g) -> positive_parameters s ->
  b_eos b = PerfectGasEos -> b_geom b = Cartesian -> no_gravity b p -> lim = LConstant -> user = UOff -> pm_pressure_fix p <> "On" ->
  (0 < cfl)%R -> (sol = HLL /\ (INR (b_nd b) * cfl <= 1)%R \/ sol = HLLC /\ (2 * INR (b_nd b) * cfl <= 1)%R) -> (p_t_ini P < p_t_end P)%R ->
  forall clock n m v, program b dims (Some f) amp clock n = Ok (Some (m, v)) ->
  v <> Failed "detected invalid volumic internal energy" /\
  forall St, left_behind m St -> physical K dims L St.
Proof. exact @file_physical. Qed.
Print Assumptions C91_results_are_physical.

(** A file for a density step in a moving gas meets all the hypotheses, on 2 x 2 processes and on one. *)
Example C91_carried_step : forall amp,
  file_with carried_T carried_f /\ described carried_T carried_p /\
  chosen carried_b carried_T carried_p (fun _ => Periodic) carried_g LConstant HLLC UOff /\ starts_with carried_T KAdvectionGap amp carried_s /\
  timing carried_p (1 / 4) carried_P /\ usable carried_b carried_p (I3 2 2 1) unit_lo unit_hi /\
  (exists X K L L1,
     executes carried_b carried_f carried_p unit_lo unit_hi (fun _ => Periodic) carried_g LConstant HLLC UOff amp carried_s (1 / 4) carried_P X K (I3 2 2 1) L /\
     executes carried_b carried_f carried_p unit_lo unit_hi (fun _ => Periodic) carried_g LConstant HLLC UOff amp carried_s (1 / 4) carried_P X K (I3 1 1 1) L1) /\
  positional carried_s /\ (forall a b c d e f g, carried_s <> SRayleighTaylor3d a b c d e f g) /\ positive_parameters carried_s /\
  b_eos carried_b = PerfectGasEos /\ b_geom carried_b = Cartesian /\ no_gravity carried_b carried_p /\ pm_pressure_fix carried_p <> "On" /\
  (2 * INR (b_nd carried_b) * (1 / 4) <= 1)%R /\ (p_t_ini carried_P < p_t_end carried_P)%R.
Proof.
  intros amp. split; [exact carried_file|]. split; [exact carried_described|]. split; [exact carried_chosen|]. split; [exact (carried_starts amp)|].
  split; [exact carried_timing|]. split; [exact carried_usable|]. split; [exact (carried_executed amp)|exact carried_conditions].
Qed.
