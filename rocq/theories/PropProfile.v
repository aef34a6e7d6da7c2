(** * Runs from profiles in a file: C96. *)
From Coq Require Import Ascii Reals.
From Coq Require String.
From Verif Require Import Base RBase ModelMesh ModelGeom ModelBoundary ModelHydro ModelRad ModelScheme ModelStep ModelUtil ModelIni ModelMain
  ModelMove ModelMPI ModelSetup ModelParam ModelH5 ModelLaunch ModelProfile
  SpecMesh SpecGeom SpecBoundary SpecHydro SpecScheme SpecStep SpecSetup SpecMain SpecMove SpecIni SpecParam SpecMPI SpecLaunch SpecProfile
  ProofParamEx2 ProofProfile2 ProofProfileEx.
Local Open Scope string_scope.
Local Open Scope Z_scope.
Local Open Scope list_scope.

(** ** C96 *)

(** A parameter file and a file of profiles with the extents it asks for: there are coordinates [X] - radially those of the file,
    regular in the angles - and operators [K], those named in the parameter file, such that on every grid of processes the run
    starts from the profiles along every ray ([v1d_executes]).  However the processes are scheduled and whatever their clocks say,
    there is no deadlock and no mismatched call, and every process that ends holds its part of that run, the grid moved by it
    included. *)
Theorem C96_processes_execute_the_profiles : forall b T f p v bc g lim sol user cfl rmax P sh disk h x rho u Pr fx,
  file_with T f -> described T p -> described_v1d T v -> chosen b T p bc g lim sol user -> timing p cfl P -> moves p v sh ->
  pm_rmax_shift p = Finite rmax -> disk (vp_file v) = Some h -> profiles (pm_nx0 p) (pm_ng p) (Z.to_nat (pm_nfx p)) h x rho u Pr fx ->
  exists X K, v1d_faces b p x X /\ forall dims, usable_v1d b p dims -> exists L St,
    v1d_executes b f disk p v bc g lim sol user cfl rmax P sh (along_rays (Z.to_nat (pm_nfx p)) rho u Pr fx) X K dims L St /\
    (messages_fit b p dims -> criterion_ok sh L -> forall clock n,
       let D := mpi_dims (b_nd b) dims in let W := v1d_launch b dims (Some f) disk clock n in
       sound D W /\
       forall m v, v1d_program b dims (Some f) disk (clock (I3 0 0 0)) n = Ok (Some (m, v)) ->
       forall x r, reaches D (start W) x -> In r (ranks D) -> ended (x r) -> pc (x r) = Ret (mloc m r, v)).
Proof. exact v1d_launched_sound. Qed.
Print Assumptions C96_processes_execute_the_profiles.

(** Two grids of processes that execute the same files end alike, with the same fields, coordinates and files in all cells. *)
Theorem C96_any_process_grid : forall b f disk p v bc g lim sol user cfl rmax P sh G X K dims L St dims' L' St',
  v1d_executes b f disk p v bc g lim sol user cfl rmax P sh G X K dims L St ->
  v1d_executes b f disk p v bc g lim sol user cfl rmax P sh G X K dims' L' St' ->
  threshold_ok sh -> criterion_ok sh L -> criterion_ok sh L' -> forall clock n, exists m m' w,
    v1d_program b dims (Some f) disk clock n = Ok (Some (m, w)) /\ v1d_program b dims' (Some f) disk clock n = Ok (Some (m', w)) /\
    m_oid m' = m_oid m /\ m_iter m' = m_iter m /\ m_t m' = m_t m /\
    same_moving K (I3 (pm_nx0 p) (pm_nx1 p) (pm_nx2 p)) dims L dims' L' (m_st m) (m_st m') /\
    Forall2 (same_file (same_moving K (I3 (pm_nx0 p) (pm_nx1 p) (pm_nx2 p)) dims L dims' L') 0) (m_files m) (m_files m').
Proof. exact v1d_any_grid. Qed.
Print Assumptions C96_any_process_grid.

(** No file of profiles, or one in which a dataset is missing or has other extents: the program throws, and so do all processes,
    in any schedule; none is left waiting. *)
Theorem C96_refused_by_all_processes : forall b T f p v bc g lim sol user cfl rmax P sh disk dims,
  file_with T f -> described T p -> described_v1d T v -> chosen b T p bc g lim sol user -> timing p cfl P -> moves p v sh ->
  pm_rmax_shift p = Finite rmax -> usable_v1d b p dims -> ~ (exists h, disk (vp_file v) = Some h /\ fitting (pm_nx0 p) (pm_ng p) (pm_nfx p) h) ->
  exists w, (forall clock n, v1d_program b dims (Some f) disk clock n = Throw w) /\
    (messages_fit b p dims -> forall clock n,
       let D := mpi_dims (b_nd b) dims in let W := v1d_launch b dims (Some f) disk clock n in
       sound D W /\ forall x r, reaches D (start W) x -> In r (ranks D) -> ended (x r) -> pc (x r) = Fail w).
Proof. exact v1d_refused_by_all. Qed.
Print Assumptions C96_refused_by_all_processes.

(** Without passive scalars the run needs no profiles of them, but a file without them is refused. *)
Theorem C96_profiles_of_no_scalars_refuted : exists b f p v disk h dims,
  usable_v1d b p dims /\ (exists x, startup b dims (I3 0 0 0) (Some f) = Ok x /\ r_param x = p) /\
  pm_nfx p = 0 /\ disk (vp_file v) = Some h /\
  (exists x rho u P, row_in h "x0" (pm_nx0 p + 2 * pm_ng p + 1) x /\ row_in h "rho_1d" (pm_nx0 p) rho /\ row_in h "u_1d" (pm_nx0 p) u /\ row_in h "P_1d" (pm_nx0 p) P) /\
  exists w, forall clock n, v1d_program b dims (Some f) disk clock n = Throw w.
Proof. exact no_scalars_refused. Qed.
Print Assumptions C96_profiles_of_no_scalars_refuted.

(** Only extents are checked: shells without thickness and a negative density are executed. *)
Theorem C96_meaningful_profiles_refuted : exists b f p v disk h dims X x rho,
  usable_v1d b p dims /\ disk (vp_file v) = Some h /\ row_in h "x0" (pm_nx0 p + 2 * pm_ng p + 1) x /\ row_in h "rho_1d" (pm_nx0 p) rho /\
  (forall i, x i = 0%R) /\ (forall i, (rho i < 0)%R) /\ v1d_faces b p x X /\
  forall clock n, exists m w, v1d_program b dims (Some f) disk clock n = Ok (Some (m, w)).
Proof. exact meaningless_accepted. Qed.
Print Assumptions C96_meaningful_profiles_refuted.

(** A star of 8 shells and 6 cells in the angle with two scalars, and a grid that moves when its last two shells are faster than
    1, on 2 x 2 processes and on one; and the same parameter file where the profiles cannot be opened. *)
Example C96_star : file_with (star_T true) (star_f true) /\ described (star_T true) (star_p true) /\ described_v1d (star_T true) star_v /\
  chosen star_b (star_T true) (star_p true) star_bc carried_g LMinmod HLLC UOff /\ timing (star_p true) (1 / 4) carried_P /\
  moves (star_p true) star_v star_sh /\ profiles 8 2 2 (shells_h star_x star_rho star_u star_P (Some star_fx)) star_x star_rho star_u star_P star_fx /\
  usable_v1d star_b (star_p true) (I3 2 2 1) /\ messages_fit star_b (star_p true) (I3 2 2 1).
Proof.
  split; [exact (star_file true)|]. split; [exact (star_described true)|]. split; [exact (star_described_v1d true)|].
  split; [exact (star_chosen true)|]. split; [exact (star_timing true)|]. split; [exact (star_moves true)|].
  split; [exact (shells_profiles _ _ _ _ _ _ eq_refl)|]. split; [exact (star_usable true _ (or_introl eq_refl))|exact (star_fit true)].
Qed.
Example C96_star_grids : exists X K L St L1 St1,
  v1d_faces star_b (star_p true) star_x X /\
  v1d_executes star_b (star_f true) (shells_disk star_x star_rho star_u star_P (Some star_fx)) (star_p true) star_v star_bc carried_g LMinmod HLLC UOff (1 / 4)
    (double_of (10 ^ 20)) carried_P star_sh (along_rays 2 star_rho star_u star_P star_fx) X K (I3 2 2 1) L St /\
  v1d_executes star_b (star_f true) (shells_disk star_x star_rho star_u star_P (Some star_fx)) (star_p true) star_v star_bc carried_g LMinmod HLLC UOff (1 / 4)
    (double_of (10 ^ 20)) carried_P star_sh (along_rays 2 star_rho star_u star_P star_fx) X K (I3 1 1 1) L1 St1 /\
  threshold_ok star_sh /\ criterion_ok star_sh L /\ criterion_ok star_sh L1 /\ messages_fit star_b (star_p true) (I3 2 2 1).
Proof. exact (shells_executed _ _ _ _ _). Qed.
Example C96_star_unreadable : ~ exists h, (fun _ : string => @None h5) (vp_file star_v) = Some h /\
  fitting (pm_nx0 (star_p true)) (pm_ng (star_p true)) (pm_nfx (star_p true)) h.
Proof. intros (h & E & _). discriminate. Qed.
