(** * From the parameter file to the run: src/utils/param.cpp, the ParamSetup constructors, src/main.cpp:105-305. *)
From Coq Require Import Ascii Reals.
From Flocq Require Import Core.
From Verif Require Import Base RBase ModelMesh ModelGeom ModelBoundary ModelHydro ModelRad ModelStep ModelUtil ModelIni ModelMain ModelSetup.
Local Open Scope string_scope.
Local Open Scope Z_scope.
Local Open Scope list_scope.

(** ** Param (src/utils/param.hpp:14-70) *)

(** A double, std::string as a Coq string. *)
Record param : Type := mkParam {
  pm_problem : string; pm_restart : bool; pm_restart_file : string; pm_rmax_shift : real_value;
  pm_nx0 : Z; pm_nx1 : Z; pm_nx2 : Z; pm_grid_type : string; pm_ng : Z;
  pm_x0min : real_value; pm_x0max : real_value; pm_x1min : real_value; pm_x1max : real_value;
  pm_x2min : real_value; pm_x2max : real_value; pm_shift_grid : string;
  pm_device_aware : bool; pm_dims0 : Z; pm_dims1 : Z; pm_dims2 : Z;
  pm_t_ini : real_value; pm_t_end : real_value; pm_cfl : real_value;
  pm_max_iter : Z; pm_iter_freq : Z; pm_time_freq : real_value; pm_time_first : real_value;
  pm_directory : string; pm_prefix : string; pm_time_job : Z;
  pm_reconstruction : string; pm_riemann : string;
  pm_gx0 : real_value; pm_gx1 : real_value; pm_gx2 : real_value; pm_M : real_value;
  pm_gamma : real_value; pm_mu : real_value;
  pm_bc : string; pm_priority : string; pm_nfx : Z; pm_user_step : string;
  pm_pressure_fix : string; pm_eps_pf : real_value }.

(** A C++ literal or the result of an operation on doubles: the nearest double, an infinity when it is too large. *)
Definition nearest (x : R) : R := round radix2 dbl_exp ZnearestE x.
Definition rounded (x : R) : real_value :=
  let y := nearest x in
  if Rle_dec (bpow radix2 1024) (Rabs y) then Infinite (rltb y 0) else Finite y.
Definition plus (a b : real_value) : real_value :=
  match a, b with
  | NotANumber, _ | _, NotANumber => NotANumber
  | Infinite s, Infinite t => if Bool.eqb s t then Infinite s else NotANumber
  | Infinite s, _ => Infinite s
  | _, Infinite t => Infinite t
  | Finite x, Finite y => rounded (x + y)
  end.

(** The getters with C++ strings. *)
Definition text (m : values) (s n d : string) : string := String.string_of_list_ascii (get m (lit s) (lit n) (lit d)).
Definition flag_of (m : values) (s n : string) (d : bool) : outcome bool := get_boolean m (lit s) (lit n) d.
Definition integer (m : values) (s n : string) (d : Z) : outcome Z := get_integer m (lit s) (lit n) d.
(** The default is given as a double. *)
Definition real_or (m : values) (s n : string) (d : real_value) : outcome real_value :=
  match get m (lit s) (lit n) [] with [] => Ok d | v => stod v end.
Definition real (m : values) (s n : string) (d : R) : outcome real_value := real_or m s n (Finite (nearest d)).

(** src/utils/param.cpp:14-73, in the order of the source; an exception of a getter leaves the constructor. *)
Definition read_param (m : values) : outcome param :=
  let problem := text m "Problem" "type" "ShockTube" in
  obind (flag_of m "Problem" "restart" false) (fun restart =>
  let restart_file := text m "Problem" "restart_file" "None" in
  obind (real m "Problem" "rmax_shift" (10 ^ 20)) (fun rmax_shift =>
  obind (integer m "Grid" "Nx0_glob" 0) (fun nx0 =>
  obind (integer m "Grid" "Nx1_glob" 0) (fun nx1 =>
  obind (integer m "Grid" "Nx2_glob" 0) (fun nx2 =>
  let grid_type := text m "Grid" "type" "Regular" in
  obind (integer m "Grid" "Nghost" 2) (fun ng =>
  obind (real m "Grid" "x0min" 0) (fun x0min =>
  obind (real m "Grid" "x0max" 1) (fun x0max =>
  obind (real m "Grid" "x1min" 0) (fun x1min =>
  obind (real m "Grid" "x1max" 1) (fun x1max =>
  obind (real m "Grid" "x2min" 0) (fun x2min =>
  obind (real m "Grid" "x2max" 1) (fun x2max =>
  let shift_grid := text m "Grid" "shift_grid" "Off" in
  obind (flag_of m "Parallelization" "mpi_device_aware" false) (fun aware =>
  obind (integer m "Parallelization" "mpi_dims_cart_x0" 0) (fun d0 =>
  obind (integer m "Parallelization" "mpi_dims_cart_x1" 0) (fun d1 =>
  obind (integer m "Parallelization" "mpi_dims_cart_x2" 0) (fun d2 =>
  obind (real m "Run" "t_ini" 0) (fun t_ini =>
  obind (real m "Run" "t_end" (2 / 10)) (fun t_end =>
  obind (real m "Run" "cfl" (4 / 10)) (fun cfl =>
  obind (integer m "Output" "max_iter" 10000) (fun max_iter =>
  obind (integer m "Output" "iter_frequency" 0) (fun iter_freq =>
  obind (real m "Output" "time_frequency" 0) (fun time_freq =>
  obind (real_or m "Output" "time_first_output" (plus t_ini time_freq)) (fun time_first =>
  let directory := text m "Output" "directory" "." in
  let prefix := text m "Output" "prefix" "result" in
  obind (integer m "Output" "time_job" 20) (fun time_job =>
  let recon := text m "Hydro" "reconstruction" "VanLeer" in
  let riemann := text m "Hydro" "riemann_solver" "HLL" in
  obind (real m "Gravity" "gx0" 0) (fun gx0 =>
  obind (real m "Gravity" "gx1" 0) (fun gx1 =>
  obind (real m "Gravity" "gx2" 0) (fun gx2 =>
  obind (real m "Gravity" "M" 1) (fun M =>
  obind (real m "Perfect Gas" "gamma" (5 / 3)) (fun gamma =>
  obind (real m "Perfect Gas" "mu" 1) (fun mu =>
  let bc := text m "Boundary Condition" "BC" "" in
  let priority := text m "Boundary Condition" "priority" "" in
  obind (integer m "Passive Scalar" "nfx" 0) (fun nfx =>
  let user := text m "User step" "user_step" "Off" in
  let pf := text m "Pressure fix" "pressure_fix" "Off" in
  obind (real m "Pressure fix" "eps_pf" (1 / 10 ^ 6)) (fun eps =>
  Ok (mkParam problem restart restart_file rmax_shift nx0 nx1 nx2 grid_type ng x0min x0max x1min x1max x2min x2max
        shift_grid aware d0 d1 d2 t_ini t_end cfl max_iter iter_freq time_freq time_first directory prefix time_job
        recon riemann gx0 gx1 gx2 M gamma mu bc priority nfx user pf eps)
  )))))))))))))))))))))))))))))))).

(** ** ParamSetup: setups/*/setup.hpp, the constructors from an INIReader *)
Inductive setup_kind : Type :=
| KAdvectionGap | KAdvectionSinus | KEqHydroSphe | KGresho | KHeatNickel | KImplosion | KKelvinHelmholtz | KRayleighTaylor
| KRayleighTaylor3d | KSedov1d | KSedov2d | KSedov3d | KShockTube | KShockWall | KStratifiedAtm | KV1d.

(** Section, key and default of the parameters, in the order of the source.  (v1d reads a file name and
    two numbers instead: ModelProfile.v.)  Lines: advection_gap 36-39, advection_sinus 33, eq_hydro_sphe 39-42, gresho_vortex 36-38, heat_nickel 36-39,
    implosion_test 37-41, kelvin_helmholtz 31, rayleigh_taylor 38-43, rayleigh_taylor3d 43-46, sedov1d 37-40, sedov2d 39-43,
    sedov3d 37-39, shock_tube 39-45, shock_wall 34-36, stratified_atm 40-43. *)
Definition ini1 (n : string) : string * string * R := ("Initialisation", n, 1%R).
Definition setup_table (k : setup_kind) : list (string * string * R) :=
  match k with
  | KAdvectionGap => map ini1 ["rho0"; "rho1"; "u0"; "P0"]
  | KAdvectionSinus => map ini1 ["u0"; "P0"]
  | KEqHydroSphe => map ini1 ["rho0"; "u0"] ++ [("Initialisation", "T0", 100%R); ("Gravity", "M", 1%R)]
  | KGresho => map ini1 ["rho0"; "u0"; "Ma"]
  | KHeatNickel => map ini1 ["rho0"; "u0"; "T0"; "fx0"]
  | KImplosion => map ini1 ["rho0"; "rho1"; "u0"; "P0"; "P1"]
  | KKelvinHelmholtz => map ini1 ["P0"]
  | KRayleighTaylor => map ini1 ["rho0"; "rho1"; "u"; "A"; "fx0"; "fx1"]
  | KRayleighTaylor3d => map ini1 ["rho0"; "rho1"; "u0"; "P0"]
  | KSedov1d => map ini1 ["rho0"; "u0"; "E0"; "E1"]
  | KSedov2d => map ini1 ["rho0"; "u0"; "P0"; "E0"; "E1"]
  | KSedov3d => map ini1 ["rho0"; "P0"; "E1"]
  | KShockTube => map ini1 ["rho0"; "rho1"; "u0"; "u1"; "P0"; "P1"; "inter"]
  | KShockWall => map ini1 ["rho0"; "u0"; "P0"]
  | KStratifiedAtm => map ini1 ["rho0"; "u0"; "T0"] ++ [("Gravity", "gx", 1%R)]
  | KV1d => []
  end.
Definition read_setup (m : values) (k : setup_kind) : outcome (list real_value) :=
  omap (fun e => let '(s, n, d) := e in real m s n d) (setup_table k).

(** ** Grid (src/mesh/grid.cpp:44-78, src/mesh/range.cpp:23-82, src/main.cpp:218-220) *)

(** The values of type [int] computed from the extents of one dimension: Nx_local_wg and the sizes of the views of
    coordinates, the bounds of the range (simulated dimensions only), the sizes of the global arrays of coordinates. *)
Definition grid_ints (nd : nat) (nglob nloc cmin : idx) (ng : Z) (d : nat) : list Z :=
  let g := coord d (nghost_of nd ng) in
  let n := coord d nloc in
  let c := coord d cmin in
  [c + n; 2 * g; n + 2 * g; n + 2 * g + 1] ++
  (if Nat.ltb d nd then [g + (c + n); g + n; g + n + 1; g + n + 2; g + n + 3; g - 1; g - 2] else []) ++
  [coord d nglob + 2 * g; coord d nglob + 2 * g + 1].

(** The Grid object of the process at [rank] of the process grid [dims] (which MPI_Dims_create chooses). *)
Definition make_grid (nd : nat) (p : param) (dims rank : idx) : outcome decomp :=
  let nglob := I3 (pm_nx0 p) (pm_nx1 p) (pm_nx2 p) in
  obind (mpi_decomposition nd nglob dims (pm_ng p) rank) (fun dec =>
  if forallb int32 (flat_map (grid_ints nd nglob (d_nloc dec) (corner_min (d_range dec)) (pm_ng p)) [0; 1; 2]%nat)
  then Ok dec else UB "signed overflow").

(** ** EOS (src/main.cpp:170) *)
Inductive eos_kind : Type := PerfectGasEos | RadGasEos.
Inductive gas : Type := PGas (g : perfect_gas) | RGas (g : rad_gas).
Definition xreal_of (x : real_value) : xreal :=
  match x with Finite r => XR r | Infinite s => XInf s | NotANumber => XNaN end.
Definition make_eos (k : eos_kind) (p : param) : outcome gas :=
  match k with
  | PerfectGasEos => obind (make_perfect_gas (xreal_of (pm_gamma p)) (xreal_of (pm_mu p))) (fun g => Ok (PGas g))
  | RadGasEos => obind (make_rad_gas (xreal_of (pm_gamma p)) (xreal_of (pm_mu p))) (fun g => Ok (RGas g))
  end.

(** ** Boundary conditions (src/main.cpp:172-185); face number 2 d + f *)
Definition bc_entries (m : values) : string -> option string :=
  fun n => match m (make_key (lit "Boundary Condition") (lit n)) with
           | Some v => Some (String.string_of_list_ascii v) | None => None end.
Definition bc_names (nd : nat) (m : values) : outcome (list string) :=
  omap (fun i => bc_choice_face (bc_entries m) (Nat.div2 i) (Nat.modulo i 2)) (seq 0 (2 * nd)).

(** ** main before the time loop *)

(** What the program was compiled for. *)
Inductive gravity_kind : Type := UniformGrav | PointMassGrav | InternalMassGrav.
Record build : Type := mkBuild { b_nd : nat; b_geom : geom; b_eos : eos_kind; b_grav : gravity_kind; b_setup : setup_kind }.

Record run : Type := mkRun {
  r_param : param;
  r_setup : list real_value;
  r_dec : decomp;
  r_gas : gas;
  r_grid : option (choice grid_kind);   (* None: coordinates come from the restart file *)
  r_bcs : list (choice bcond);
  r_order : list (option nat);
  r_lim : limiter; r_sol : solver; r_user : choice user_kind; r_shift : bool; r_pf : bool }.

Definition reader_of (file : option bytes) : outcome values :=
  match ini_reader file with
  | Reader m => Ok m
  | NoFile => Throw "Could not open INI file"
  | BadLine _ => Throw "INI file parse error"
  end.

(** src/main.cpp:115-305: the checks and choices made from the parameter file, in program order.  Left out: PDI and Kokkos
    calls, reading of a restart file, the kernels of the initialisation (ModelSetup.v), and the refusal of a geometry by a
    setup (setup_check), which are subjects of other models. *)
Definition startup_from (b : build) (dims rank : idx) (m : values) : outcome run :=
  obind (read_param m) (fun p =>
  obind (read_setup m (b_setup b)) (fun ps =>
  obind (make_grid (b_nd b) p dims rank) (fun dec =>
  obind (make_eos (b_eos b) p) (fun g =>
  obind (bc_names (b_nd b) m) (fun names =>
  obind (if pm_restart p then Ok None
         else obind (or_setup factory_grid_type (pm_grid_type p)) (fun t => Ok (Some t))) (fun gt =>
  obind (match b_grav b with
         | InternalMassGrav => if coord 0 (mpi_dims (b_nd b) dims) =? 1 then Ok tt
                               else Throw "The function make_internal_mass_gravity does not handle more than 1 MPI process in the first dimension"
         | _ => Ok tt end) (fun _ =>
  obind (omap (or_setup factory_boundary) names) (fun bcs =>
  obind (generate_order (b_nd b) (pm_priority p)) (fun order =>
  obind (factory_limiter (pm_reconstruction p)) (fun lim =>
  obind (factory_solver (pm_riemann p)) (fun sol =>
  obind (or_setup factory_user_step (pm_user_step p)) (fun us =>
  Ok (mkRun p ps dec g gt bcs order lim sol us (String.eqb (pm_shift_grid p) "UserDefined")
        (String.eqb (pm_pressure_fix p) "On")))))))))))))).
Definition startup (b : build) (dims rank : idx) (file : option bytes) : outcome run :=
  obind (reader_of file) (startup_from b dims rank).

(** ** The run as the other models see it *)

Definition value_of (x : real_value) : R := match x with Finite r => r | _ => 0%R end.
Definition gas_eos (g : gas) : eos := match g with PGas g => pg_eos g | RGas g => rg_eos g end.
Definition gas_thermo (g : gas) : thermo := match g with PGas g => pg_thermo g | RGas g => rg_thermo g end.

(** The operators of the time loop (src/main.cpp:86-96, 266-297, 459-466), for a run without operators from the setup header
    and with finite numbers. *)
Definition config_of (b : build) (r : run) : config :=
  let p := r_param r in
  mkConfig (b_geom b) (b_nd b) (pm_ng p) (gas_eos (r_gas r)) (r_lim r) (r_sol r)
    (if r_pf r then Some (value_of (pm_eps_pf p)) else None)
    (match r_user r with Builtin u => u | FromSetup => UOff end)
    (match b_grav b with
     | UniformGrav => GUniform (fun d => match d with O => value_of (pm_gx0 p) | 1%nat => value_of (pm_gx1 p) | _ => value_of (pm_gx2 p) end)
     | PointMassGrav => GPointMass (value_of (pm_M p))
     | InternalMassGrav => GInternalMass (value_of (pm_M p)) end)
    (fun f => match nth f (r_bcs r) FromSetup with Builtin c => c | FromSetup => NullGradient end)
    (match applied_order (r_order r) with Ok l => l | _ => [] end).
(** The loop (src/main.cpp:212-215, 315-382). *)
Definition params_of (r : run) : params :=
  let p := r_param r in
  mkParams (value_of (pm_t_ini p)) (value_of (pm_t_end p)) (pm_max_iter p) (pm_iter_freq p)
    (value_of (pm_time_freq p)) (value_of (pm_time_first p)).
(** The initial conditions (src/main.cpp:263); the amplitudes of rayleigh_taylor3d are random numbers. *)
Definition setup_of (b : build) (r : run) (ak bk ck dk : R) : option setup :=
  match b_setup b, map value_of (r_setup r) with
  | KAdvectionGap, [rho0; rho1; u0; P0] => Some (SAdvectionGap rho0 rho1 u0 P0)
  | KAdvectionSinus, [u0; P0] => Some (SAdvectionSinus u0 P0)
  | KEqHydroSphe, [rho0; u0; T0; M] => Some (SEqHydroSphe rho0 u0 T0 M)
  | KGresho, [rho0; u0; Ma] => Some (SGresho rho0 u0 Ma)
  | KHeatNickel, [rho0; u0; T0; fx0] => Some (SHeatNickel rho0 u0 T0 fx0)
  | KImplosion, [rho0; rho1; u0; P0; P1] => Some (SImplosion rho0 rho1 u0 P0 P1)
  | KKelvinHelmholtz, [P0] => Some (SKelvinHelmholtz P0)
  | KRayleighTaylor, [rho0; rho1; u; _; fx0; fx1] => Some (SRayleighTaylor rho0 rho1 u fx0 fx1)
  | KRayleighTaylor3d, [rho0; rho1; u0; _] => Some (SRayleighTaylor3d rho0 rho1 u0 ak bk ck dk)
  | KSedov1d, [rho0; u0; E0; E1] => Some (SSedov1d rho0 u0 E0 E1)
  | KSedov2d, [rho0; u0; _; E0; E1] => Some (SSedov2d rho0 u0 E0 E1)
  | KSedov3d, [rho0; P0; E1] => Some (SSedov3d rho0 P0 E1)
  | KShockTube, [rho0; rho1; u0; u1; P0; P1; inter] => Some (SShockTube rho0 rho1 u0 u1 P0 P1 inter)
  | KShockWall, [rho0; u0; P0] => Some (SShockWall rho0 u0 P0)
  | KStratifiedAtm, [rho0; u0; T0; _] => Some (SStratifiedAtm rho0 u0 T0)
  | _, _ => None
  end.

(** The coordinates of a run that does not restart and has a regular grid (src/main.cpp:217-219, 253-254;
    src/mesh/grid_type.cpp:48-58). *)
Definition lower_bound (p : param) (d : nat) : real_value := match d with O => pm_x0min p | 1%nat => pm_x1min p | _ => pm_x2min p end.
Definition upper_bound (p : param) (d : nat) : real_value := match d with O => pm_x0max p | 1%nat => pm_x1max p | _ => pm_x2max p end.
Definition extents (p : param) : idx := I3 (pm_nx0 p) (pm_nx1 p) (pm_nx2 p).
Definition coords_of (b : build) (p : param) : nat -> arr1 := fun d =>
  regular_mesh (coord d (extents p)) (coord d (nghost_of (b_nd b) (pm_ng p))) (value_of (lower_bound p d)) (value_of (upper_bound p d)).
(** The grid objects of all processes after set_grid (src/main.cpp:255). *)
Definition layout_of (b : build) (dims : idx) (runs : idx -> run) : layout :=
  mkLayout (mpi_dims (b_nd b) dims) (fun r => r_dec (runs r))
    (fun r => match set_grid (r_dec (runs r)) (coords_of b (r_param (runs r))) with Ok m => m | _ => fun _ _ => 0%R end).

(** ** The program, from the parameter file to the end of the loop (src/main.cpp:57-585) *)

Definition finite_number (x : real_value) : bool := match x with Finite _ => true | _ => false end.
Definition is_builtin {A : Type} (c : choice A) : bool := match c with Builtin _ => true | FromSetup => false end.
(** The runs composed here: new, on the regular grid, without moving grid and operators from the setup header, with finite
    numbers. *)
Definition composed (r : run) : bool :=
  let p := r_param r in
  match r_grid r with Some g => is_builtin g | None => false end && forallb is_builtin (r_bcs r) && is_builtin (r_user r) &&
  negb (r_shift r) &&
  forallb finite_number ([pm_x0min p; pm_x0max p; pm_x1min p; pm_x1max p; pm_x2min p; pm_x2max p; pm_t_ini p; pm_t_end p; pm_cfl p;
    pm_time_freq p; pm_time_first p; pm_gx0 p; pm_gx1 p; pm_gx2 p; pm_M p; pm_eps_pf p] ++ r_setup r).
(** What every process has read and built; the entries of ranks outside the process grid have no meaning. *)
Definition program_runs (b : build) (dims : idx) (file : option bytes) (r0 : run) : idx -> run := fun r =>
  match startup b dims r file with Ok x => x | _ => r0 end.
(** [amp]: the random amplitudes of rayleigh_taylor3d.  None: not composed here. *)
Definition program (b : build) (dims : idx) (file : option bytes) (amp : R * R * R * R) (clock : Z -> bool) (n : nat)
  : outcome (option (mstate (idx -> pstate) * verdict)) :=
  let '(ak, bk, ck, dk) := amp in
  obind (startup b dims (I3 0 0 0) file) (fun r0 =>
  if negb (composed r0) then Ok None else
  match setup_of b r0 ak bk ck dk with
  | None => Ok None
  | Some s =>
      let K := config_of b r0 in
      let L := layout_of b dims (program_runs b dims file r0) in
      let P := params_of r0 in
      obind (initialise s K (gas_thermo (r_gas r0)) (extents (r_param r0)) L) (fun st =>
      Ok (Some (loop (hydro K L (value_of (pm_cfl (r_param r0)))) P clock n (fresh P (init_state K L st)))))
  end).
