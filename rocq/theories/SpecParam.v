(** * Vocabulary for the options of a run (C89, C90): what a parameter file says. *)
From Coq Require Import Ascii Reals.
From Coq Require String.
From Flocq Require Import Core.
From Verif Require Import Base RBase ModelMesh ModelGeom ModelBoundary ModelHydro ModelRad ModelStep ModelUtil ModelIni ModelMain ModelSetup ModelParam SpecGeom SpecBoundary SpecStep SpecPos SpecIni.
Local Open Scope string_scope.
Local Open Scope Z_scope.
Local Open Scope list_scope.

(** The values written in the entries [T] for an option, and the text they give. *)
Definition given (T : list entry) (s n : string) : list bytes := written (lit s) (lit n) T.
Definition value_given (T : list entry) (s n : string) : bytes := join (given T s n).

(** The double nearest to a number; the numbers that have a double of the normal range (or zero) next to them. *)
Definition double_of (x : R) : R := round radix2 (FLT_exp (-1074) 53) ZnearestE x.
Definition ordinary (x : R) : Prop := x = 0%R \/ (bpow radix2 (-1022) <= Rabs (double_of x) < bpow radix2 1024)%R.

(** An option with a number, without a value or without a mention: the default. *)
Definition says_int (T : list entry) (s n : string) (d z : Z) : Prop :=
  value_given T s n = [] /\ z = d \/ signed_number (value_given T s n) z /\ in_int z.
Definition says_real_or (T : list entry) (s n : string) (d x : real_value) : Prop :=
  value_given T s n = [] /\ x = d \/
  exists k e, decimal_literal (value_given T s n) k e /\ ordinary (IZR k * powerRZ 10 e) /\
              x = Finite (double_of (IZR k * powerRZ 10 e)).
Definition says_real (T : list entry) (s n : string) (d : R) (x : real_value) : Prop :=
  says_real_or T s n (Finite (double_of d)) x.
Definition says_bool (T : list entry) (s n : string) (d b : bool) : Prop :=
  value_given T s n = [] /\ b = d \/ spelled (if b then yes_spellings else no_spellings) (value_given T s n).
(** An option with a text: the default only without a mention. *)
Definition says_text (T : list entry) (s n d w : string) : Prop :=
  given T s n = [] /\ w = d \/ given T s n <> [] /\ lit w = value_given T s n.

(** The sum of two doubles that are not too large. *)
Definition sum_of (a b c : real_value) : Prop :=
  exists x y, a = Finite x /\ b = Finite y /\ (Rabs (double_of (x + y)) < bpow radix2 1024)%R /\ c = Finite (double_of (x + y)).

(** The table of options: section, name, default. *)
Record described (T : list entry) (p : param) : Prop := mkDescribed {
  g_problem : says_text T "Problem" "type" "ShockTube" (pm_problem p);
  g_restart : says_bool T "Problem" "restart" false (pm_restart p);
  g_restart_file : says_text T "Problem" "restart_file" "None" (pm_restart_file p);
  g_rmax_shift : says_real T "Problem" "rmax_shift" (10 ^ 20) (pm_rmax_shift p);
  g_nx0 : says_int T "Grid" "Nx0_glob" 0 (pm_nx0 p);
  g_nx1 : says_int T "Grid" "Nx1_glob" 0 (pm_nx1 p);
  g_nx2 : says_int T "Grid" "Nx2_glob" 0 (pm_nx2 p);
  g_grid_type : says_text T "Grid" "type" "Regular" (pm_grid_type p);
  g_ng : says_int T "Grid" "Nghost" 2 (pm_ng p);
  g_x0min : says_real T "Grid" "x0min" 0 (pm_x0min p);
  g_x0max : says_real T "Grid" "x0max" 1 (pm_x0max p);
  g_x1min : says_real T "Grid" "x1min" 0 (pm_x1min p);
  g_x1max : says_real T "Grid" "x1max" 1 (pm_x1max p);
  g_x2min : says_real T "Grid" "x2min" 0 (pm_x2min p);
  g_x2max : says_real T "Grid" "x2max" 1 (pm_x2max p);
  g_shift_grid : says_text T "Grid" "shift_grid" "Off" (pm_shift_grid p);
  g_device_aware : says_bool T "Parallelization" "mpi_device_aware" false (pm_device_aware p);
  g_dims0 : says_int T "Parallelization" "mpi_dims_cart_x0" 0 (pm_dims0 p);
  g_dims1 : says_int T "Parallelization" "mpi_dims_cart_x1" 0 (pm_dims1 p);
  g_dims2 : says_int T "Parallelization" "mpi_dims_cart_x2" 0 (pm_dims2 p);
  g_t_ini : says_real T "Run" "t_ini" 0 (pm_t_ini p);
  g_t_end : says_real T "Run" "t_end" (1 / 5) (pm_t_end p);
  g_cfl : says_real T "Run" "cfl" (2 / 5) (pm_cfl p);
  g_max_iter : says_int T "Output" "max_iter" 10000 (pm_max_iter p);
  g_iter_freq : says_int T "Output" "iter_frequency" 0 (pm_iter_freq p);
  g_time_freq : says_real T "Output" "time_frequency" 0 (pm_time_freq p);
  g_time_first : exists d, sum_of (pm_t_ini p) (pm_time_freq p) d /\ says_real_or T "Output" "time_first_output" d (pm_time_first p);
  g_directory : says_text T "Output" "directory" "." (pm_directory p);
  g_prefix : says_text T "Output" "prefix" "result" (pm_prefix p);
  g_time_job : says_int T "Output" "time_job" 20 (pm_time_job p);
  g_reconstruction : says_text T "Hydro" "reconstruction" "VanLeer" (pm_reconstruction p);
  g_riemann : says_text T "Hydro" "riemann_solver" "HLL" (pm_riemann p);
  g_gx0 : says_real T "Gravity" "gx0" 0 (pm_gx0 p);
  g_gx1 : says_real T "Gravity" "gx1" 0 (pm_gx1 p);
  g_gx2 : says_real T "Gravity" "gx2" 0 (pm_gx2 p);
  g_M : says_real T "Gravity" "M" 1 (pm_M p);
  g_gamma : says_real T "Perfect Gas" "gamma" (5 / 3) (pm_gamma p);
  g_mu : says_real T "Perfect Gas" "mu" 1 (pm_mu p);
  g_bc : says_text T "Boundary Condition" "BC" "" (pm_bc p);
  g_priority : says_text T "Boundary Condition" "priority" "" (pm_priority p);
  g_nfx : says_int T "Passive Scalar" "nfx" 0 (pm_nfx p);
  g_user_step : says_text T "User step" "user_step" "Off" (pm_user_step p);
  g_pressure_fix : says_text T "Pressure fix" "pressure_fix" "Off" (pm_pressure_fix p);
  g_eps_pf : says_real T "Pressure fix" "eps_pf" (1 / 1000000) (pm_eps_pf p) }.

(** The parameters of the setup: those of section Initialisation, all with default 1 except a temperature, and those of
    section Gravity. *)
Definition setup_options (k : setup_kind) : list (string * R) * list (string * R) :=
  let ones l := map (fun n => (n, 1%R)) l in
  match k with
  | KAdvectionGap => (ones ["rho0"; "rho1"; "u0"; "P0"], [])
  | KAdvectionSinus => (ones ["u0"; "P0"], [])
  | KEqHydroSphe => (ones ["rho0"; "u0"] ++ [("T0", 100%R)], ones ["M"])
  | KGresho => (ones ["rho0"; "u0"; "Ma"], [])
  | KHeatNickel => (ones ["rho0"; "u0"; "T0"; "fx0"], [])
  | KImplosion => (ones ["rho0"; "rho1"; "u0"; "P0"; "P1"], [])
  | KKelvinHelmholtz => (ones ["P0"], [])
  | KRayleighTaylor => (ones ["rho0"; "rho1"; "u"; "A"; "fx0"; "fx1"], [])
  | KRayleighTaylor3d => (ones ["rho0"; "rho1"; "u0"; "P0"], [])
  | KSedov1d => (ones ["rho0"; "u0"; "E0"; "E1"], [])
  | KSedov2d => (ones ["rho0"; "u0"; "P0"; "E0"; "E1"], [])
  | KSedov3d => (ones ["rho0"; "P0"; "E1"], [])
  | KShockTube => (ones ["rho0"; "rho1"; "u0"; "u1"; "P0"; "P1"; "inter"], [])
  | KShockWall => (ones ["rho0"; "u0"; "P0"], [])
  | KStratifiedAtm => (ones ["rho0"; "u0"; "T0"], ones ["gx"])
  | KV1d => ([], [])
  end.
Definition described_setup (T : list entry) (k : setup_kind) (ps : list real_value) : Prop :=
  exists ps1 ps2, ps = ps1 ++ ps2 /\
    Forall2 (fun e x => says_real T "Initialisation" (fst e) (snd e) x) (fst (setup_options k)) ps1 /\
    Forall2 (fun e x => says_real T "Gravity" (fst e) (snd e) x) (snd (setup_options k)) ps2.

(** The condition named for a face: the option of the face, otherwise that of the direction, otherwise the general one. *)
Definition face_names : list (string * string) :=
  [("BC_X0", "BC_X0_left"); ("BC_X0", "BC_X0_right"); ("BC_X1", "BC_X1_left"); ("BC_X1", "BC_X1_right");
   ("BC_X2", "BC_X2_left"); ("BC_X2", "BC_X2_right")].
Definition face_value (T : list entry) (e : string * string) : bytes :=
  let of n := given T "Boundary Condition" n in
  match of (snd e), of (fst e), of "BC" with
  | [], [], l => join l
  | [], l, _ => join l
  | l, _, _ => join l
  end.

(** The names of the implementations. *)
Definition named {A : Type} (table : list (string * A)) (w : string) (a : A) : Prop := In (w, a) table.
Definition bc_table : list (string * choice bcond) :=
  [("NullGradient", Builtin NullGradient); ("Periodic", Builtin Periodic); ("Reflexive", Builtin Reflexive); ("UserDefined", FromSetup)].
Definition limiter_table : list (string * limiter) :=
  [("Constant", LConstant); ("VanLeer", LVanLeer); ("Minmod", LMinmod); ("VanAlbada", LVanAlbada)].
Definition solver_table : list (string * solver) := [("HLL", HLL); ("HLLC", HLLC); ("Low Mach", LowMach)].
Definition user_table : list (string * choice user_kind) :=
  [("Off", Builtin UOff); ("Heat_nickel", Builtin UHeatNickel); ("UserDefined", FromSetup)].
Definition grid_table : list (string * choice grid_kind) := [("Regular", Builtin RegularGrid); ("UserDefined", FromSetup)].

(** The parameters of a gas. *)
Definition gas_is (k : eos_kind) (gamma mu : R) (g : gas) : Prop :=
  match k with PerfectGasEos => g = PGas (mkPG gamma mu) | RadGasEos => g = RGas (mkRG gamma mu) end.

(** The options the program looks up. *)
Definition known_options (b : build) : list (string * string) :=
  [("Problem", "type"); ("Problem", "restart"); ("Problem", "restart_file"); ("Problem", "rmax_shift");
   ("Grid", "Nx0_glob"); ("Grid", "Nx1_glob"); ("Grid", "Nx2_glob"); ("Grid", "type"); ("Grid", "Nghost");
   ("Grid", "x0min"); ("Grid", "x0max"); ("Grid", "x1min"); ("Grid", "x1max"); ("Grid", "x2min"); ("Grid", "x2max");
   ("Grid", "shift_grid");
   ("Parallelization", "mpi_device_aware"); ("Parallelization", "mpi_dims_cart_x0"); ("Parallelization", "mpi_dims_cart_x1");
   ("Parallelization", "mpi_dims_cart_x2");
   ("Run", "t_ini"); ("Run", "t_end"); ("Run", "cfl");
   ("Output", "max_iter"); ("Output", "iter_frequency"); ("Output", "time_frequency"); ("Output", "time_first_output");
   ("Output", "directory"); ("Output", "prefix"); ("Output", "time_job");
   ("Hydro", "reconstruction"); ("Hydro", "riemann_solver");
   ("Gravity", "gx0"); ("Gravity", "gx1"); ("Gravity", "gx2"); ("Gravity", "M");
   ("Perfect Gas", "gamma"); ("Perfect Gas", "mu");
   ("Boundary Condition", "BC"); ("Boundary Condition", "priority");
   ("Passive Scalar", "nfx"); ("User step", "user_step"); ("Pressure fix", "pressure_fix"); ("Pressure fix", "eps_pf")] ++
  map (fun n => ("Boundary Condition", n))
    ["BC_X0"; "BC_X0_left"; "BC_X0_right"; "BC_X1"; "BC_X1_left"; "BC_X1_right"; "BC_X2"; "BC_X2_left"; "BC_X2_right"] ++
  map (fun e => ("Initialisation", fst e)) (fst (setup_options (b_setup b))) ++
  map (fun e => ("Gravity", fst e)) (snd (setup_options (b_setup b))) ++
  match b_setup b with KV1d => [("Problem", "init_file"); ("Problem", "vmax_shift"); ("Problem", "cell_shift")] | _ => [] end.

(** A file, however laid out, with entries [T] and without malformed lines. *)
Definition file_with (T : list entry) (f : bytes) : Prop :=
  exists ls, text_of ls f /\ (forall l, In l ls -> fits l) /\ bom (hd [] ls) = false /\ means [] [] 0 ls T [].

(** Extents of the mesh that the index arithmetic can handle. *)
Definition extents_ok (nd : nat) (p : param) : Prop :=
  0 <= pm_ng p /\ 2 * pm_ng p + 3 < 2 ^ 31 /\
  forall n, In n [pm_nx0 p; pm_nx1 p; pm_nx2 p] -> 0 <= n /\ n + 2 * pm_ng p + 3 < 2 ^ 31.
Definition process_of (nd : nat) (dims rank : idx) : Prop :=
  forall d, (d < 3)%nat -> 1 <= coord d dims /\ 0 <= coord d rank < (if Nat.ltb d nd then coord d dims else 1).

(** ** C91 *)

(** A run with cells, ghost cells and ordered bounds, on a process grid that leaves every process at least as many cells as
    ghosts: from the initial conditions, on the regular grid, with the default order of the boundaries. *)
Record usable (b : build) (p : param) (dims : idx) (lo hi : nat -> R) : Prop := {
  us_nd : (1 <= b_nd b <= 3)%nat;
  us_new : pm_restart p = false;
  us_grid : pm_grid_type p = "Regular";
  us_order : pm_priority p = "";
  us_ng : 2 <= pm_ng p;
  us_lower : pm_x0min p = Finite (lo 0%nat) /\ pm_x1min p = Finite (lo 1%nat) /\ pm_x2min p = Finite (lo 2%nat);
  us_upper : pm_x0max p = Finite (hi 0%nat) /\ pm_x1max p = Finite (hi 1%nat) /\ pm_x2max p = Finite (hi 2%nat);
  us_bounds : forall d, (d < 3)%nat -> (lo d < hi d)%R;
  us_cells : forall n, In n [pm_nx0 p; pm_nx1 p; pm_nx2 p] -> 1 <= n /\ n + 2 * pm_ng p + 3 < 2 ^ 31;
  us_dims : forall d, (d < 3)%nat -> 1 <= coord d dims;
  us_thick : forall d, (d < b_nd b)%nat -> pm_ng p * coord d dims <= nth d [pm_nx0 p; pm_nx1 p; pm_nx2 p] 0;
  us_grav : b_grav b = InternalMassGrav -> coord 0 dims = 1 }.

(** The operators named in the file, none of them from the setup header. *)
Record chosen (b : build) (T : list entry) (p : param) (bc : nat -> bcond) (g : gas) (lim : limiter) (sol : solver) (user : user_kind) : Prop := {
  ch_gas : exists ga mu, pm_gamma p = Finite ga /\ pm_mu p = Finite mu /\ (1 < ga)%R /\ (0 < mu)%R /\ gas_is (b_eos b) ga mu g;
  ch_bc : Forall2 (fun e f => exists w, lit w = face_value T e /\ named bc_table w (Builtin (bc f)))
            (firstn (2 * b_nd b) face_names) (seq 0 (2 * b_nd b));
  ch_lim : named limiter_table (pm_reconstruction p) lim;
  ch_sol : named solver_table (pm_riemann p) sol;
  ch_user : named user_table (pm_user_step p) (Builtin user) }.

(** The initial conditions, by the names of their parameters; [amp] are the random amplitudes of rayleigh_taylor3d. *)
Definition starts_with (T : list entry) (k : setup_kind) (amp : R * R * R * R) (s : setup) : Prop :=
  let of n x := says_real T "Initialisation" n 1 (Finite x) in
  let read n := exists x, of n x in
  match s with
  | SAdvectionGap rho0 rho1 u0 P0 => k = KAdvectionGap /\ of "rho0" rho0 /\ of "rho1" rho1 /\ of "u0" u0 /\ of "P0" P0
  | SAdvectionSinus u0 P0 => k = KAdvectionSinus /\ of "u0" u0 /\ of "P0" P0
  | SEqHydroSphe rho0 u0 T0 M => k = KEqHydroSphe /\ of "rho0" rho0 /\ of "u0" u0 /\
      says_real T "Initialisation" "T0" 100 (Finite T0) /\ says_real T "Gravity" "M" 1 (Finite M)
  | SGresho rho0 u0 Ma => k = KGresho /\ of "rho0" rho0 /\ of "u0" u0 /\ of "Ma" Ma
  | SHeatNickel rho0 u0 T0 fx0 => k = KHeatNickel /\ of "rho0" rho0 /\ of "u0" u0 /\ of "T0" T0 /\ of "fx0" fx0
  | SImplosion rho0 rho1 u0 P0 P1 => k = KImplosion /\ of "rho0" rho0 /\ of "rho1" rho1 /\ of "u0" u0 /\ of "P0" P0 /\ of "P1" P1
  | SKelvinHelmholtz P0 => k = KKelvinHelmholtz /\ of "P0" P0
  | SRayleighTaylor rho0 rho1 u fx0 fx1 => k = KRayleighTaylor /\ of "rho0" rho0 /\ of "rho1" rho1 /\ of "u" u /\ read "A" /\
      of "fx0" fx0 /\ of "fx1" fx1
  | SRayleighTaylor3d rho0 rho1 u0 ak bk ck dk => k = KRayleighTaylor3d /\ of "rho0" rho0 /\ of "rho1" rho1 /\ of "u0" u0 /\ read "P0" /\
      amp = (ak, bk, ck, dk)
  | SSedov1d rho0 u0 E0 E1 => k = KSedov1d /\ of "rho0" rho0 /\ of "u0" u0 /\ of "E0" E0 /\ of "E1" E1
  | SSedov2d rho0 u0 E0 E1 => k = KSedov2d /\ of "rho0" rho0 /\ of "u0" u0 /\ read "P0" /\ of "E0" E0 /\ of "E1" E1
  | SSedov3d rho0 P0 E1 => k = KSedov3d /\ of "rho0" rho0 /\ of "P0" P0 /\ of "E1" E1
  | SShockTube rho0 rho1 u0 u1 P0 P1 inter => k = KShockTube /\ of "rho0" rho0 /\ of "rho1" rho1 /\ of "u0" u0 /\ of "u1" u1 /\
      of "P0" P0 /\ of "P1" P1 /\ of "inter" inter
  | SShockWall rho0 u0 P0 => k = KShockWall /\ of "rho0" rho0 /\ of "u0" u0 /\ of "P0" P0
  | SStratifiedAtm rho0 u0 T0 => k = KStratifiedAtm /\ of "rho0" rho0 /\ of "u0" u0 /\ of "T0" T0 /\
      exists g, says_real T "Gravity" "gx" 1 (Finite g)
  end.
(** The setups that are not implemented in a geometry. *)
Definition implemented (g : geom) (s : setup) : Prop :=
  match s with SSedov2d _ _ _ _ => g <> Spherical | SSedov3d _ _ _ => g <> Cartesian | _ => True end.

(** The numbers of the loop. *)
Definition timing (p : param) (cfl : R) (P : params) : Prop :=
  pm_cfl p = Finite cfl /\ pm_t_ini p = Finite (p_t_ini P) /\ pm_t_end p = Finite (p_t_end P) /\ p_max_iter P = pm_max_iter p /\
  p_iter_freq P = pm_iter_freq p /\ pm_time_freq p = Finite (p_time_freq P) /\ pm_time_first p = Finite (p_time_first P).

(** All the arrays a run leaves behind: those of the outputs and the last ones. *)
Definition left_behind {S : Type} (m : mstate S) (x : S) : Prop := x = m_st m \/ exists f, In f (m_files m) /\ x = fl_data f.

(** Gravity switched off in the file. *)
Definition no_gravity (b : build) (p : param) : Prop :=
  b_grav b = UniformGrav /\ pm_gx0 p = Finite 0 /\ pm_gx1 p = Finite 0 /\ pm_gx2 p = Finite 0.

(** The processes [dims] and the layout [L] execute the run that the file describes, with the coordinates [X] and the
    operators [K]. *)
Record executes (b : build) (f : bytes) (p : param) (lo hi : nat -> R) (bc : nat -> bcond) (g : gas) (lim : limiter) (sol : solver)
  (user : user_kind) (amp : R * R * R * R) (s : setup) (cfl : R) (P : params)
  (X : nat -> arr1) (K : ModelStep.config) (dims : idx) (L : layout) : Prop := {
  xr_start : forall r, process (b_nd b) dims r -> exists x, startup b dims r (Some f) = Ok x /\ r_param x = p /\ r_gas x = g;
  xr_usable : usable b p dims lo hi;
  xr_gas : exists ga mu, pm_gamma p = Finite ga /\ pm_mu p = Finite mu /\ (1 < ga)%R /\ (0 < mu)%R /\ gas_is (b_eos b) ga mu g;
  xr_geom : k_geom K = b_geom b;
  xr_nd : k_nd K = b_nd b;
  xr_ng : k_ng K = pm_ng p;
  xr_lim : k_lim K = lim;
  xr_sol : k_sol K = sol;
  xr_user : k_user K = user;
  xr_eos : k_eos K = match g with PGas g => pg_eos g | RGas g => rg_eos g end;
  xr_pf : if String.eqb (pm_pressure_fix p) "On" then exists eps, pm_eps_pf p = Finite eps /\ k_pf K = Some eps else k_pf K = None;
  xr_bcs : forall i, (i < 2 * b_nd b)%nat -> k_bcs K i = bc i;
  xr_no_bcs : forall i, (2 * b_nd b <= i)%nat -> k_bcs K i = NullGradient; (* there are no such faces *)
  xr_order : k_order K = seq 0 (2 * b_nd b);
  xr_grav : match b_grav b with
            | UniformGrav => exists gv, k_grav K = GUniform gv /\ pm_gx0 p = Finite (gv 0%nat) /\ pm_gx1 p = Finite (gv 1%nat) /\
                               forall d, (2 <= d)%nat -> pm_gx2 p = Finite (gv d)
            | PointMassGrav => exists M, pm_M p = Finite M /\ k_grav K = GPointMass M
            | InternalMassGrav => exists M, pm_M p = Finite M /\ k_grav K = GInternalMass M
            end;
  xr_runs : runs_on K (I3 (pm_nx0 p) (pm_nx1 p) (pm_nx2 p)) dims X L;
  xr_coords : forall d i, (d < 3)%nat ->
    a_at (X d) i = (lo d + IZR (i - (if Nat.ltb d (b_nd b) then pm_ng p else 0%Z)) * ((hi d - lo d) / IZR (nth d [pm_nx0 p; pm_nx1 p; pm_nx2 p] 0%Z)))%R;
  xr_program : forall clock n,
    program b dims (Some f) amp clock n =
    Ok (Some (loop (hydro K L cfl) P clock n (fresh P (init_state K L (setup_state s K (match g with PGas g => pg_thermo g | RGas g => rg_thermo g end)
      (I3 (pm_nx0 p) (pm_nx1 p) (pm_nx2 p)) L))))) }.
