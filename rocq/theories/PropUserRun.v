(** * C101: from the parameter file to runs with boundary conditions of the setup. *)
From Coq Require Import Ascii Reals Lra.
From Coq Require String.
From Verif Require Import Base RBase ModelMesh ModelGeom ModelBoundary ModelHydro ModelRad ModelScheme ModelStep ModelUtil ModelIni ModelMain ModelSetup ModelParam ModelUser ModelUserRun
  SpecMesh SpecGeom SpecBoundary SpecHydro SpecScheme SpecStep SpecSetup SpecMain SpecIni SpecParam SpecUser SpecUserRun
  ProofParamEx2 ProofUserRun2 ProofUserRunEx.
Local Open Scope string_scope.
Local Open Scope Z_scope.
Local Open Scope list_scope.

(** A file that describes a run, in which faces may be "UserDefined", is executed on every process grid that can hold it; the
    operators, the conditions and the coordinates do not depend on the process grid. *)
Theorem C101_the_file_is_executed : forall b T f p lo hi bc g lim sol user amp s cfl P,
  file_with T f -> described T p -> own_chosen b T p bc g lim sol user -> starts_with T (b_setup b) amp s ->
  pm_shift_grid p <> "UserDefined" -> implemented (b_geom b) s -> timing p cfl P -> (wants_own (b_nd b) bc -> offers_own s) ->
  exists X K U, forall dims, usable b p dims lo hi -> exists L, own_executes b f p lo hi bc g lim sol user amp s cfl P X K U dims L.
Proof. exact own_executed. Qed.
Print Assumptions C101_the_file_is_executed.

(** A setup that has no conditions of its own: the program ends by an exception, on every process grid. *)
Theorem C101_missing_conditions_are_refused : forall b T f p lo hi bc g lim sol user amp s cfl P,
  file_with T f -> described T p -> own_chosen b T p bc g lim sol user -> starts_with T (b_setup b) amp s ->
  pm_shift_grid p <> "UserDefined" -> implemented (b_geom b) s -> timing p cfl P -> wants_own (b_nd b) bc -> ~ offers_own s ->
  forall dims clock n, usable b p dims lo hi ->
  own_program b dims (Some f) amp clock n = Throw "Boundary setup not implemented".
Proof. exact own_refused. Qed.
Print Assumptions C101_missing_conditions_are_refused.

(** Without such faces it is the program of C91, whatever the file contains. *)
Theorem C101_without_own_faces : forall b dims file amp clock n,
  (forall r, startup b dims (I3 0 0 0) file = Ok r -> forallb is_builtin (r_bcs r) = true) ->
  own_program b dims file amp clock n = program b dims file amp clock n.
Proof. exact own_program_builtin. Qed.
Print Assumptions C101_without_own_faces.

(** The results do not depend on the process grid. *)
Theorem C101_any_process_grid : forall b f p lo hi bc g lim sol user amp s cfl P X K U dims dims' L L',
  own_executes b f p lo hi bc g lim sol user amp s cfl P X K U dims L -> own_executes b f p lo hi bc g lim sol user amp s cfl P X K U dims' L' ->
  positional s -> forall clock n m v m' v',
  own_program b dims (Some f) amp clock n = Ok (Some (m, v)) -> own_program b dims' (Some f) amp clock n = Ok (Some (m', v')) ->
  v' = v /\ m_oid m' = m_oid m /\ m_iter m' = m_iter m /\ m_t m' = m_t m /\
  let same := same_arrays K (I3 (pm_nx0 p) (pm_nx1 p) (pm_nx2 p)) X dims L dims' L' in
  same (m_st m) (m_st m') /\ Forall2 (same_file same 0) (m_files m) (m_files m').
Proof. exact own_any_grid. Qed.
Print Assumptions C101_any_process_grid.

(** Before the first iteration, every cell of every process, and of the first output, holds the gas at rest of the profile,
    if both faces of the first direction are "UserDefined". *)
Theorem C101_first_output_is_the_profile : forall b f p lo hi bc g lim sol user amp s cfl P X K U dims L,
  own_executes b f p lo hi bc g lim sol user amp s cfl P X K U dims L ->
  forall gas rho0 T0, g = PGas gas -> atmosphere s rho0 0 T0 -> (0 < rho0)%R -> (0 < T0)%R -> bc 0%nat = FromSetup -> bc 1%nat = FromSetup ->
  forall clock m v, own_program b dims (Some f) amp clock 0 = Ok (Some (m, v)) ->
  forall St r c, left_behind m St -> process (b_nd b) dims r -> in_array (d_nwg (l_dec L r)) c ->
  let v := setup_cell s (setup_env K (pg_thermo gas) (I3 (pm_nx0 p) (pm_nx1 p) (pm_nx2 p)) L r) c old_cell in
  at_rest_with (b_nd b) gas v (s_cell (St r) c) /\ (forall k, (k < b_nd b)%nat -> s_u (St r) c k = 0%R) /\ s_P (St r) c = i_P v.
Proof. intros until L. intros HE gas rho0 T0 Hg Ha Hr HT. exact (own_first_output HE gas rho0 T0 Hg Ha Hr HT). Qed.
Print Assumptions C101_first_output_is_the_profile.

(** However many iterations are done, and in every output, the ghost cells beyond a face "UserDefined" hold the profile, unless a
    later face has overwritten them. *)
Theorem C101_ghost_cells_keep_the_profile : forall b f p lo hi bc g lim sol user amp s cfl P X K U dims L,
  own_executes b f p lo hi bc g lim sol user amp s cfl P X K U dims L ->
  forall gas rho0 T0, g = PGas gas -> atmosphere s rho0 0 T0 -> (0 < rho0)%R -> b_grav b <> InternalMassGrav ->
  forall clock n m v, own_program b dims (Some f) amp clock n = Ok (Some (m, v)) ->
  forall St r c i, left_behind m St -> process (b_nd b) dims r -> (i < 2 * b_nd b)%nat -> bc i = FromSetup -> beyond K L i r c ->
  (forall h, (i < h < 2 * b_nd b)%nat -> ~ beyond K L h r c) ->
  at_rest_with (b_nd b) gas (setup_cell s (setup_env K (pg_thermo gas) (I3 (pm_nx0 p) (pm_nx1 p) (pm_nx2 p)) L r) c old_cell) (s_cell (St r) c).
Proof. intros until L. intros HE gas rho0 T0 Hg Ha Hr. exact (own_ghosts_kept HE gas rho0 T0 Hg Ha Hr). Qed.
Print Assumptions C101_ghost_cells_keep_the_profile.

(** inputs/stratified_atm.ini, as shipped: 10000 cells, both ends "UserDefined"; on 64 processes and on one. *)
Example C101_stratified_atm : forall amp,
  file_with strat_T strat_f /\ described strat_T strat_p /\ own_chosen strat_b strat_T strat_p strat_bc (PGas strat_gas) LVanLeer HLLC UOff /\
  starts_with strat_T KStratifiedAtm amp strat_s /\ timing strat_p strat_cfl strat_P /\
  atmosphere strat_s 10 0 100 /\ (0 < 10)%R /\ (0 < 100)%R /\ positional strat_s /\ b_grav strat_b <> InternalMassGrav /\
  strat_bc 0%nat = FromSetup /\ strat_bc 1%nat = FromSetup /\
  exists X K U L L1,
  own_executes strat_b strat_f strat_p strat_lo strat_hi strat_bc (PGas strat_gas) LVanLeer HLLC UOff amp strat_s strat_cfl strat_P X K U (I3 64 1 1) L /\
  own_executes strat_b strat_f strat_p strat_lo strat_hi strat_bc (PGas strat_gas) LVanLeer HLLC UOff amp strat_s strat_cfl strat_P X K U (I3 1 1 1) L1.
Proof.
  intros amp. split; [exact strat_file|]. split; [exact strat_described|]. split; [exact strat_chosen|]. split; [apply strat_starts|].
  split; [exact strat_timing|]. split; [exact strat_atmosphere|]. split; [lra|]. split; [lra|]. split; [exact I|]. split; [discriminate|].
  split; [reflexivity|]. split; [reflexivity|]. apply strat_executed.
Qed.

(** The same file for an executable built with the setup shock_tube. *)
Example C101_shock_tube : forall amp clock n,
  usable tube_b strat_p (I3 4 1 1) strat_lo strat_hi /\ wants_own 1 strat_bc /\ ~ offers_own tube_s /\
  own_program tube_b (I3 4 1 1) (Some strat_f) amp clock n = Throw "Boundary setup not implemented".
Proof.
  intros. split; [exact tube_usable|]. split; [exists 0%nat; split; [repeat constructor|reflexivity]|].
  split; [intros [(x & y & z & E)|(x & y & z & w & E)]; discriminate|apply tube_refused].
Qed.
